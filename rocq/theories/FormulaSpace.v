(** * FormulaSpace: white space keeps a text apart from the formula before it. *)

From Coq Require Import Ascii String List NArith ZArith Bool Lia Arith.
From Verif Require Import Base Float32 Event Tables Prim PrimTable Lex Macros Primitives Spans Parser
  SpecLex SpecNum LexFacts LexMore LexNum PrimFacts KeepRun Measure Order Terminate Api Sim SimRun SpanFacts MacroRun SpecFormula FormulaLex
  FormulaActs FormulaNucleus FormulaNucleus2 FormulaNucleus3 FormulaNucleus4 FormulaStep FormulaPrefix FormulaCompose FormulaDerive FormulaProps
  SpecFault FormulaFault FormulaFirst SpecBeyond FormulaDecide FormulaDecide2 FormulaCore Keep SpecAppend FormulaAppend.
Import ListNotations.
Open Scope N_scope.
Open Scope list_scope.

Strategy 1000 [parse parse_fuel].

Lemma nil_off : stands_off [].
Proof. split; [exact I|]. intros r. split; discriminate. Qed.
Lemma nucleus_solid : forall (KN : Known) h s es l r, nucleus h s es l r -> solid s.
Proof. intros KN h s es l r H. apply (all_off [] nil_off) in H. apply H. Qed.
Lemma solid_ne : forall s, solid s -> s <> [].
Proof. intros s H ->. exact (solid_not_white _ H eq_refl). Qed.
Lemma nucleus_ne : forall (KN : Known) h s es l r, nucleus h s es l r -> s <> [].
Proof. intros KN h s es l r H E. apply nucleus_solid in H. exact (solid_ne s H E). Qed.

(** What follows a text that is not only white space does not change its start. *)
Lemma cut_solid : forall s y w c r, solid s -> white w -> s ++ y = w ++ c :: r -> exists s', s = w ++ c :: s' /\ r = s' ++ y.
Proof.
  intros s y w c r Hs Hw E. apply app_eq_app in E as (l & [(E1 & E2)|(E1 & E2)]).
  - destruct l as [|x l]; [exfalso; rewrite app_nil_r in E1; subst s; exact (solid_not_white _ Hs Hw)|]. cbn in E2. injection E2 as <- E2. exists l. auto.
  - exfalso. subst w. exact (solid_not_white _ Hs (white_left _ _ Hw)).
Qed.
Lemma starts_solid : forall c s y, solid s -> ~ starts c s -> ~ starts c (s ++ y).
Proof. intros c s y Hs H (w & r & Hw & E). destruct (cut_solid _ _ _ _ _ Hs Hw E) as (s' & -> & _). apply H. exists w, s'. auto. Qed.
Lemma letters_cut : forall kw s y r, Forall letter kw -> not_next letter y -> s ++ y = kw ++ r -> exists r', s = kw ++ r' /\ r = r' ++ y.
Proof.
  intros kw s y r Hl. revert s. induction Hl as [|c kw Hc Hl IH]; intros s Hy E; [exists s; auto|]. destruct s as [|d s]; cbn in E.
  - subst y. cbn in Hy. contradiction.
  - injection E as -> E. destruct (IH s Hy E) as (r' & -> & ->). exists r'. auto.
Qed.
Lemma word_solid : forall kw s y w r, solid s -> white w -> kw <> [] -> Forall letter (tl kw) -> not_next letter y -> s ++ y = w ++ kw ++ r ->
  exists r', s = w ++ kw ++ r' /\ r = r' ++ y.
Proof.
  intros [|k kw] s y w r Hs Hw Hn Hl Hy E; [congruence|]. destruct (cut_solid _ _ _ _ _ Hs Hw E) as (s' & -> & E2).
  symmetry in E2. apply letters_cut in E2 as (r' & -> & ->); [exists r'; auto|exact Hl|exact Hy].
Qed.

Section Space.
  Variable q : str.
  Variable c0 : char.
  Variable w0 : str.
  Hypothesis Hc0 : c0 < 128.
  Hypothesis Hw0 : white (c0 :: w0).
  Hypothesis Hq : stands_off_spaced q.

  (** What is left of the white space and [q] after a text of which [r] is left. *)
  Definition ok (r x : str) : Prop := x = c0 :: w0 ++ q \/ (r = [] /\ exists v, white v /\ x = v ++ q).

  Lemma c0_ws : is_ws c0 = true.
  Proof. unfold white in Hw0. cbn [forallb] in Hw0. apply andb_prop in Hw0. apply Hw0. Qed.
  Lemma w0_white : white w0.
  Proof. unfold white in *. cbn [forallb] in Hw0. apply andb_prop in Hw0. apply Hw0. Qed.
  Lemma white_head_ws : forall c v, white (c :: v) -> is_ws c = true.
  Proof. intros c v H. unfold white in H. cbn [forallb] in H. apply andb_prop in H. apply H. Qed.
  Lemma c0_small : (9 <= c0 <= 13) \/ c0 = 32.
  Proof.
    pose proof c0_ws as H. unfold is_ws in H. repeat (apply orb_prop in H as [H|H]); try (apply N.eqb_eq in H; lia); apply andb_prop in H as [H1 H2]; apply N.leb_le in H1, H2; lia.
  Qed.
  Lemma c0_letter : not_next letter (c0 :: w0 ++ q).
  Proof. cbn. unfold letter. pose proof c0_small. lia. Qed.

  Lemma ok_ne : forall r x, ok r x -> r <> [] -> x = c0 :: w0 ++ q.
  Proof. intros r x [H|[H _]] Hr; [exact H|contradiction]. Qed.
  Lemma ok_here : forall r, ok r (c0 :: w0 ++ q).
  Proof. left. reflexivity. Qed.
  Lemma head_q : forall (P : char -> Prop) r x, ok r x -> (forall c, P c -> is_ws c = true \/ c = 94 \/ c = 95 \/ c = 46 \/ c = 44) -> (forall c, is_ws c = true -> ~ P c) -> not_next P r -> not_next P (r ++ x).
  Proof.
    intros P [|c r] x Hx HP H32 H; [|exact H]. cbn [app]. destruct Hx as [->|(_ & [|c v] & Hv & ->)]; [apply H32, c0_ws| |apply H32, (white_head_ws _ _ Hv)]. destruct Hq as [H1 _]. cbn [app]. destruct q as [|c r]; [exact I|]. cbn in *. intros Hc. apply H1, HP, Hc.
  Qed.
  Lemma white_q : forall l c r, q = l ++ c :: r -> white l -> l = [].
  Proof.
    intros [|x l] c r E Hw; [reflexivity|]. destruct Hq as [H1 _]. rewrite E in H1. cbn in H1. exfalso. apply H1. unfold white in Hw. cbn [forallb] in Hw. apply andb_prop in Hw as [Hw _]. auto.
  Qed.
  Lemma cut_q : forall s x w c r, ok s x -> white w -> is_ws c = false -> s ++ x = w ++ c :: r ->
    (exists s', s = w ++ c :: s' /\ r = s' ++ x) \/ (white s /\ q = c :: r).
  Proof.
    intros s x w c r Hx Hw Hc E. assert (Hx' : exists v, white v /\ x = v ++ q) by (destruct Hx as [->|(_ & v & Hv & ->)]; [exists (c0 :: w0)|exists v]; split; auto).
    destruct Hx' as (v & Hv & ->). apply app_eq_app in E as (l & [(E1 & E2)|(E1 & E2)]).
    - destruct l as [|y l]; [|left; cbn in E2; injection E2 as <- E2; exists l; auto]. right. rewrite app_nil_r in E1. subst w. split; [exact Hw|]. cbn in E2.
      destruct v as [|y v]; [exact (eq_sym E2)|]. cbn in E2. injection E2 as -> _. unfold white in Hv. cbn [forallb] in Hv. rewrite Hc in Hv. discriminate.
    - right. subst w. split; [exact (white_left _ _ Hw)|]. apply white_right in Hw. apply app_eq_app in E2 as (m & [(E2 & E3)|(E2 & E3)]).
      + destruct m as [|y m]; [exact (eq_sym E3)|]. cbn in E3. injection E3 as -> _. subst v. apply white_right in Hv. unfold white in Hv. cbn [forallb] in Hv. rewrite Hc in Hv. discriminate.
      + subst l. assert (m = []) by (eapply white_q; [exact E3|eapply white_right, Hw]). subst m. exact E3.
  Qed.
  Lemma starts_sp : forall c s x, c = 94 \/ c = 95 -> ok s x -> ~ starts c s -> ~ starts c (s ++ x).
  Proof.
    intros c s x Hc Hx H (w & r & Hw & E). assert (HC : is_ws c = false) by (destruct Hc; subst; reflexivity). destruct (cut_q _ _ _ _ _ Hx Hw HC E) as [(s' & -> & _)|(_ & Eq)]; [apply H; exists w, s'; auto|].
    destruct Hq as [H1 _]. rewrite Eq in H1. cbn in H1. tauto.
  Qed.

  Lemma control_sp : forall cs t r, control cs t r -> exists x, ok r x /\ control cs (t ++ c0 :: w0 ++ q) (r ++ x).
  Proof.
    intros cs t [|c r] H; [|exists (c0 :: w0 ++ q); split; [apply ok_here|apply control_app; [exact H|discriminate]]].
    exists q. split; [right; split; [reflexivity|exists []; split; reflexivity]|]. destruct H as (w & -> & Hw & _ & Hc). exists (w ++ c0 :: w0). split; [cbn [app]; rewrite app_nil_r, <- !app_assoc; reflexivity|].
    split; [apply white_app; [exact Hw|exact Hw0]|]. split; [destruct Hq as [H1 _]; destruct q; [exact I|cbn in *; tauto]|].
    destruct Hc as [(H1 & H2 & H3)|H3]; [left; split; [exact H1|]; split; [exact H2|]|right; exact H3]. rewrite app_nil_r in H3.
    destruct w as [|c w]; [exact c0_letter|exact H3].
  Qed.
  Lemma control_in : forall cs t r, control cs t r -> r <> [] -> control cs (t ++ c0 :: w0 ++ q) (r ++ c0 :: w0 ++ q).
  Proof. intros. apply control_app; assumption. Qed.

  Lemma delimiter_sp : forall s c ty r, delimiter s c ty r -> exists x, ok r x /\ delimiter (s ++ c0 :: w0 ++ q) c ty (r ++ x).
  Proof.
    intros s c ty r [b c1 ty0 r0 Hb Hi|b cs t c1 ty0 r0 Hb Hc Hi]; rewrite <- app_assoc; [exists (c0 :: w0 ++ q); split; [apply ok_here|now apply D_char]|].
    apply control_sp in Hc as (x & Hx & Hc). exists x. split; [exact Hx|]. eapply D_command; eassumption.
  Qed.
  Lemma delimiter_opt_sp : forall s o r, delimiter_opt s o r -> exists x, ok r x /\ delimiter_opt (s ++ c0 :: w0 ++ q) o (r ++ x).
  Proof.
    intros s o r [r0|s0 c ty r0 Hn Hd]; [exists (c0 :: w0 ++ q); split; [apply ok_here|apply DO_dot]|]. pose proof (delimiter_solid _ _ _ _ Hd) as Hs.
    apply delimiter_sp in Hd as (x & Hx & Hd). exists x. split; [exact Hx|]. eapply DO_some; [|exact Hd]. destruct s0; [destruct (solid_ne _ Hs eq_refl)|exact Hn].
  Qed.
  Lemma frac_delimiter_sp : forall s o r, frac_delimiter s o r -> r <> [] -> frac_delimiter (s ++ c0 :: w0 ++ q) o (r ++ c0 :: w0 ++ q).
  Proof.
    intros s o r [w r0 Hw|s0 c ty r0 Hn Hd] Hr; [rewrite <- app_assoc; now apply FD_none|]. pose proof (delimiter_solid _ _ _ _ Hd) as Hs.
    apply delimiter_sp in Hd as (x & Hx & Hd). rewrite (ok_ne _ _ Hx Hr) in Hd. eapply FD_some; [apply starts_solid; assumption|exact Hd].
  Qed.
  Lemma frac_style_sp : forall s o r, frac_style s o r -> frac_style (s ++ c0 :: w0 ++ q) o (r ++ c0 :: w0 ++ q).
  Proof.
    intros s sty r [w y sty0 r0 Hw Hy|b c sty0 r0 Hb Hc]; rewrite <- app_assoc; [|now apply FS_digit]. cbn [app]. rewrite <- app_assoc. now apply FS_group.
  Qed.
  Lemma one_sp : forall s r, one_argument s r -> r <> [] -> one_argument (s ++ c0 :: w0 ++ q) (r ++ c0 :: w0 ++ q).
  Proof. intros. apply one_app; assumption. Qed.
  Lemma spaced_sp : forall s r, spaced s r -> exists x, ok r x /\ spaced (s ++ c0 :: w0 ++ q) (r ++ x).
  Proof.
    intros s r [(-> & H)|(c & H1 & H2 & ->)].
    - destruct r as [|c r]; [exists (w0 ++ q); split; [right; split; [reflexivity|exists w0; split; [exact w0_white|reflexivity]]|right; exists c0; split; [exact c0_ws|split; [exact Hc0|reflexivity]]]|]. exists (c0 :: w0 ++ q). split; [apply ok_here|left; split; [reflexivity|exact H]].
    - exists (c0 :: w0 ++ q). split; [apply ok_here|]. right. exists c. auto.
  Qed.
  Lemma code_sp : forall s z r, code_text s z r -> exists x, ok r x /\ code_text (s ++ c0 :: w0 ++ q) z (r ++ x).
  Proof.
    intros s z r [x z0 s0 r0 Hx Hn Hs|c r0 H1 H2|c r0 H1].
    - apply spaced_sp in Hs as (y & Hy & Hs). exists y. split; [exact Hy|]. rewrite <- app_assoc. apply CT_figures; [exact Hx| |exact Hs].
      destruct s0 as [|c s0]; [|exact Hn]. cbn [app not_next]. unfold next_figure. pose proof c0_small. destruct Hx as [ds Hd Hne|ds Hd|ds Hd]; unfold hexadecimal_digit, digit; try lia.
      destruct ds as [|d ds]; [congruence|]. inversion Hd as [|? ? H0 _]; subst. unfold digit in H0. destruct d as [|d]; [lia|]. do 6 (destruct d as [d|d|]; try lia).
    - exists (c0 :: w0 ++ q). split; [apply ok_here|now apply CT_character].
    - exists (c0 :: w0 ++ q). split; [apply ok_here|now apply CT_escaped].
  Qed.
  Lemma stretch_sp : forall kw s p r x, In kw [lit "plus"; lit "minus"] -> ok s x -> stretch kw s p r -> exists x', ok r x' /\ stretch kw (s ++ x) p (r ++ x').
  Proof.
    intros kw s p r x Hk Hx H. assert (Hl : Forall letter kw) by (destruct Hk as [<-|[<-|[]]]; apply letters_b; reflexivity). assert (Hn : kw <> []) by (destruct Hk as [<-|[<-|[]]]; discriminate).
    destruct H as [s0 H|s0 d0 d y r0 (w & Hw & ->) Hd Hy].
    - exists x. split; [exact Hx|]. apply Stretch_none. intros z (w & Hw & E). destruct kw as [|k kw]; [congruence|]. cbn [app] in E.
      inversion Hl as [|? ? Hc Hl']; subst. destruct (cut_q _ _ _ _ _ Hx Hw (letter_not_ws _ Hc) E) as [(s' & -> & E2)|(_ & Eq)].
      + symmetry in E2. 
        apply letters_cut in E2 as (r' & -> & ->); [|exact Hl'|].
        * apply (H r'). exists w. auto.
        * assert (x = c0 :: w0 ++ q) as -> by (eapply ok_ne; [exact Hx|intros E0; apply app_eq_nil in E0 as [_ E0]; discriminate]). exact c0_letter.
      + destruct Hq as (_ & _ & Hs). destruct (Hs z) as [A B]. destruct Hk as [Hk|[Hk|[]]]; rewrite Eq in A, B; [apply A|apply B]; rewrite Hk; reflexivity.
    - assert (x = c0 :: w0 ++ q) as -> by (eapply ok_ne; [exact Hx|intros E0; apply app_eq_nil in E0 as [_ E0]; destruct kw; [congruence|discriminate]]).
      apply spaced_sp in Hy as (x' & Hx' & Hy). exists x'. split; [exact Hx'|]. eapply Stretch_some; [|exact Hd|exact Hy]. exists w. split; [exact Hw|]. rewrite <- !app_assoc. reflexivity.
  Qed.
  Lemma glue_sp : forall s d p m r, glue_text s d p m r -> exists x, ok r x /\ glue_text (s ++ c0 :: w0 ++ q) d p m (r ++ x).
  Proof.
    intros s d p m r [x d0 s0 s1 p0 s2 m0 r0 Hx Hs Hp Hm]. apply spaced_sp in Hs as (x1 & O1 & Hs). apply (stretch_sp _ _ _ _ x1) in Hp as (x2 & O2 & Hp); [|left; reflexivity|exact O1].
    apply (stretch_sp _ _ _ _ x2) in Hm as (x3 & O3 & Hm); [|right; left; reflexivity|exact O2]. exists x3. split; [exact O3|]. rewrite <- app_assoc. eapply Glue_text; eassumption.
  Qed.
  Lemma modifiers_sp : forall p s p' r, modifiers p s p' r -> forall x, ok s x -> exists x', ok r x' /\ modifiers p (s ++ x) p' (r ++ x').
  Proof.
    destruct limits_letters as (L1 & L2 & _). intros p s p' r H. induction H as [p s H|p w s p' r Hw H IH|p w s p' r Hw H IH]; intros x Hx.
    - exists x. split; [exact Hx|]. apply M_none.
      assert (A : forall kw w r, Forall letter kw -> white w -> (forall r, q <> 92 :: kw ++ r) -> s ++ x = w ++ 92 :: kw ++ r -> exists r', s = w ++ 92 :: kw ++ r').
      { intros kw w r Hl Hw Hk E. destruct (cut_q _ _ _ _ _ Hx Hw (eq_refl : is_ws 92 = false) E) as [(s' & Es & E2)|(_ & Eq)]; [|exfalso; exact (Hk _ Eq)].
        symmetry in E2. apply letters_cut in E2 as (r' & -> & _); [exists r'; exact Es|exact Hl|].
        assert (x = c0 :: w0 ++ q) as -> by (eapply ok_ne; [exact Hx|subst s; intros E0; apply app_eq_nil in E0 as [_ E0]; discriminate]). exact c0_letter. }
      destruct Hq as (_ & Hl & _). intros w r Hw. split; intros E.
      + destruct (A (lit "limits") w r L1 Hw (fun r0 => proj1 (Hl r0)) E) as (r' & ->). destruct (H w r' Hw) as [B _]. apply B. reflexivity.
      + destruct (A (lit "nolimits") w r L2 Hw (fun r0 => proj2 (Hl r0)) E) as (r' & ->). destruct (H w r' Hw) as [_ B]. apply B. reflexivity.
    - rewrite (ok_ne _ _ Hx) by (intros E0; apply app_eq_nil in E0 as [_ E0]; discriminate). destruct (IH _ (ok_here _)) as (x' & Hx' & H'). exists x'. split; [exact Hx'|]. rewrite <- !app_assoc. now apply M_limits.
    - rewrite (ok_ne _ _ Hx) by (intros E0; apply app_eq_nil in E0 as [_ E0]; discriminate). destruct (IH _ (ok_here _)) as (x' & Hx' & H'). exists x'. split; [exact Hx'|]. rewrite <- !app_assoc. now apply M_nolimits.
  Qed.
  Lemma placed_sp : forall l s p r x, placed l s p r -> ok s x -> exists x', ok r x' /\ placed l (s ++ x) p (r ++ x').
  Proof.
    intros l s p r x H Hx. unfold placed in *. destruct (fst l); [eapply modifiers_sp; eassumption|]. destruct H as [-> ->]. exists x. auto.
  Qed.
  Lemma no_script_sp : forall r x, ok r x -> no_script r -> no_script (r ++ x).
  Proof. intros r x Hx H. apply head_q; [exact Hx|tauto| |exact H]. intros c Hc [E|E]; subst c; discriminate. Qed.
  Lemma lines_sp : forall s ls r, solid r -> lines s ls r -> lines (s ++ c0 :: w0 ++ q) ls (r ++ c0 :: w0 ++ q).
  Proof.
    destruct limits_letters as (_ & _ & L1 & L2). intros s ls r Hr H. induction H as [s H|w s ls r Hw H IH|w s ls r Hw H IH].
    - apply L_none. intros w r Hw. split; intros E; (apply word_solid in E as (x & E & _); [|assumption|assumption|discriminate|assumption|exact c0_letter]);
        destruct (H w x Hw) as [A B]; first [exact (A E)|exact (B E)].
    - rewrite <- !app_assoc. apply L_solid; auto.
    - rewrite <- !app_assoc. apply L_dashed; auto.
  Qed.
  Lemma env_args_sp : forall name s e r, solid r -> env_args name s e r -> env_args name (s ++ c0 :: w0 ++ q) e (r ++ c0 :: w0 ++ q).
  Proof.
    intros name s e r Hr H. destruct H; repeat (first [rewrite <- app_assoc | progress cbn [app]]); try (econstructor; eassumption).
    apply EA_starred; [assumption|]. apply starts_solid; assumption.
  Qed.

  Context {KN : Known}.

  Definition nuc_sp (h : bool) (s : str) (es : list event) (l : limits) (r : str) : Prop :=
    exists x, ok r x /\ nucleus h (s ++ c0 :: w0 ++ q) es l (r ++ x).

  Lemma code_ne : forall s z r, code_text s z r -> s <> [].
  Proof.
    intros s z r [x z0 s0 r0 Hx _ _|c r0 _ _|c r0 _]; try discriminate. intros E. apply app_eq_nil in E as [E _]. destruct Hx as [ds _ Hne|ds _|ds _]; [contradiction|discriminate..].
  Qed.
  Lemma glue_ne : forall s d p m r, glue_text s d p m r -> s <> [].
  Proof. intros s d p m r [x d0 s0 s1 p0 s2 m0 r0 Hx _ _ _] E. apply app_eq_nil in E as [E _]. destruct (dimension_text_visible _ _ Hx) as [H _]. exact (H E). Qed.
  Lemma delimiter_opt_ne : forall s o r, delimiter_opt s o r -> s <> [].
  Proof. intros s o r [r0|s0 c ty r0 _ Hd]; [discriminate|]. apply solid_ne, (delimiter_solid _ _ _ _ Hd). Qed.
  Lemma frac_delimiter_ne : forall s o r, frac_delimiter s o r -> s <> [].
  Proof. intros s o r [w r0 _|s0 c ty r0 _ Hd]; [intros E; apply app_eq_nil in E as [_ E]; discriminate|]. apply solid_ne, (delimiter_solid _ _ _ _ Hd). Qed.
  Lemma one_ne : forall s r, one_argument s r -> s <> [].
  Proof.
    intros s r [w g r0 _ _|b c r0 _ _ _ _ _|b cs t r0 _ H]; [intros E; apply app_eq_nil in E as [_ E]; discriminate..|]. apply solid_ne. eapply control_solid, H.
  Qed.
  Lemma next_32 : forall (P : char -> Prop) r, ~ P c0 -> not_next P r -> not_next P (r ++ c0 :: w0 ++ q).
  Proof. intros P [|c r] H0 H; [exact H0|exact H]. Qed.
  Lemma not_numeric_32 : ~ numeric c0.
  Proof. unfold numeric, digit. pose proof c0_small. lia. Qed.

  Ltac known_ne s := lazymatch goal with H : s <> [] |- _ => fail | _ => idtac end.
  Ltac nes := repeat match goal with
    | H : frac_delimiter ?s _ _ |- _ => known_ne s; pose proof (frac_delimiter_ne _ _ _ H)
    | H : one_argument ?s _ |- _ => known_ne s; pose proof (one_ne _ _ H)
    end.
  Ltac ne := first
    [ assumption | discriminate
    | match goal with H : nucleus _ ?r _ _ _ |- ?r <> [] => apply (nucleus_ne _ _ _ _ _ _ H) end
    | match goal with H : delimiter ?r _ _ _ |- ?r <> [] => apply solid_ne, (delimiter_solid _ _ _ _ H) end
    | match goal with H : code_text ?r _ _ |- ?r <> [] => apply (code_ne _ _ _ H) end
    | match goal with H : glue_text ?r _ _ _ _ |- ?r <> [] => apply (glue_ne _ _ _ _ _ H) end
    | match goal with H : delimiter_opt ?r _ _ |- ?r <> [] => apply (delimiter_opt_ne _ _ _ H) end
    | match goal with H : frac_delimiter ?r _ _ |- ?r <> [] => apply (frac_delimiter_ne _ _ _ H) end
    | match goal with H : one_argument ?r _ |- ?r <> [] => apply (one_ne _ _ H) end
    | let E := fresh in intros E; apply app_eq_nil in E as [_ E]; discriminate E ].
  Ltac fresh_text t := lazymatch t with context [c0 :: w0 ++ q] => fail | _ => idtac end.
  Ltac flat_in H := repeat (first [rewrite <- app_assoc in H | progress cbn [app] in H]).
  Ltac fixed H O := first [rewrite (ok_ne _ _ O) in H by ne; clear O|idtac]; flat_in H.
  Ltac step := match goal with
    | H : control _ ?t ?r |- _ => fresh_text t; first [apply control_in in H; [|ne]; flat_in H|let x := fresh "x" in let O := fresh "O" in apply control_sp in H as (x & O & H)]
    | H : delimiter ?t _ _ _ |- _ => fresh_text t; let x := fresh "x" in let O := fresh "O" in apply delimiter_sp in H as (x & O & H); fixed H O
    | H : delimiter_opt ?t _ _ |- _ => fresh_text t; let x := fresh "x" in let O := fresh "O" in apply delimiter_opt_sp in H as (x & O & H); fixed H O
    | H : code_text ?t _ _ |- _ => fresh_text t; let x := fresh "x" in let O := fresh "O" in apply code_sp in H as (x & O & H)
    | H : glue_text ?t _ _ _ _ |- _ => fresh_text t; let x := fresh "x" in let O := fresh "O" in apply glue_sp in H as (x & O & H)
    | H : frac_delimiter ?t _ _ |- _ => fresh_text t; apply frac_delimiter_sp in H; [|ne]; flat_in H
    | H : frac_style ?t _ _ |- _ => fresh_text t; apply frac_style_sp in H
    | H : one_argument ?t _ |- _ => fresh_text t; apply one_sp in H; [|ne]
    | H : ~ starts ?c ?t |- _ => fresh_text t; apply (starts_solid c t (c0 :: w0 ++ q)) in H; [flat_in H|first [eapply nucleus_solid; eassumption|apply solid_in; assumption]]
    | H : nuc_sp _ _ _ _ _ |- _ => let x := fresh "x" in let O := fresh "O" in destruct H as (x & O & H); fixed H O
    end.
  Ltac final := repeat (first [rewrite <- app_assoc | progress cbn [app]]); econstructor; eassumption.
  Ltac go := nes; repeat step; first [eexists; split; [eassumption|final]|exists (c0 :: w0 ++ q); split; [apply ok_here|final]].

  Lemma all_sp :
    (forall h s es l r, nucleus h s es l r -> nuc_sp h s es l r) /\
    (forall s es, over s es -> True) /\
    (forall h ks s ess r, arguments h ks s ess r -> forall x, ok s x -> exists x', ok r x' /\ arguments h ks (s ++ x) ess (r ++ x')) /\
    (forall p es s es' r, scripts p es s es' r -> forall x, ok s x -> exists x', ok r x' /\ scripts p es (s ++ x) es' (r ++ x')) /\
    (forall s es r, element s es r -> exists x, ok r x /\ element (s ++ c0 :: w0 ++ q) es (r ++ x)) /\
    (forall al s es, formula al s es -> True).
  Proof.
    apply (@meaning_all KN); intros; try exact I.
    all: try solve [go].
    - (* a number *)
      exists (c0 :: w0 ++ q). split; [apply ok_here|]. rewrite <- !app_assoc. apply N_number; [assumption|assumption|].
      match goal with H : after_number _ _ |- _ => destruct H as [(D1 & D2)|(p & r' & Hp & -> & D)] end;
        [left; split; [exact D1|]|right; exists p, (r' ++ c0 :: w0 ++ q); split; [exact Hp|split; [reflexivity|]]]; (apply next_32; [exact not_numeric_32|assumption]).
    - (* a command *)
      repeat step. match goal with O : ok s ?x, IH : forall _, ok s _ -> _ |- _ => destruct (IH x O) as (x' & O' & A) end. exists x'. split; [exact O'|]. rewrite <- app_assoc. eapply N_command; eassumption.
    - (* left and right *)
      match goal with H : enclosed _ _ _ g s' |- _ => apply (enclosed_off (c0 :: w0 ++ q)) in H; try (apply back_lit; reflexivity); flat_in H end. go.
    - (* an environment *)
      match goal with H1 : control _ t _, H2 : env_args _ _ _ _, H3 : lines _ _ _, H4 : enclosed _ _ _ _ _ |- _ => rename H1 into C1, H2 into C2, H3 into C3, H4 into C4 end.
      pose proof (env_name _ _ _ _ C2) as Hn. apply env_back in Hn as [Hn1 Hn2]. pose proof (solid_back _ (enclosed_back _ _ _ _ _ Hn2 C4)) as Hs2.
      pose proof (solid_ends _ _ (lines_ends _ _ _ C3) Hs2) as Hs1. apply env_args_sp in C2; [|exact Hs1]. apply lines_sp in C3; [|exact Hs2]. apply (enclosed_off (c0 :: w0 ++ q)) in C4; [|assumption..].
      step. exists (c0 :: w0 ++ q). split; [apply ok_here|]. rewrite <- app_assoc. eapply N_env; eassumption.
    - (* a length *)
      match goal with H1 : control _ t _, H2 : spaced _ _, H3 : g = true -> _, H4 : dimension_text x d |- _ => rename H1 into C1, H2 into C2, H3 into C3, H4 into C4 end.
      apply control_in in C1; [|intros E; apply app_eq_nil in E as [E _]; destruct (dimension_text_visible _ _ C4) as [H' _]; exact (H' E)]. rewrite <- app_assoc in C1.
      apply spaced_sp in C2 as (y & O & C2).
      assert (A : forall r, no_stretch r -> no_stretch (r ++ c0 :: w0 ++ q)).
      { intros r' D r0. split; intros E; apply letters_cut in E as (z & E & _); [exact (proj1 (D z) E)|apply letters_b; reflexivity|exact c0_letter|exact (proj2 (D z) E)|apply letters_b; reflexivity|exact c0_letter]. }
      exists y. split; [exact O|]. rewrite <- app_assoc. destruct r as [|c1 r0].
      + destruct O as [->|(_ & v & Hv & ->)].
        * destruct g; [|eapply N_space; try eassumption; discriminate].
          assert (B : forall kw, In kw [lit "plus"; lit "minus"] -> stretch kw (c0 :: w0 ++ q) None (c0 :: w0 ++ q)).
          { intros kw Hk. destruct (stretch_sp kw [] None [] (c0 :: w0 ++ q) Hk (ok_here _)) as (x' & Hx' & S'); [apply Stretch_none; intros z (w & _ & E); destruct w, Hk as [<-|[<-|[]]]; discriminate E|].
            cbn [app] in S'. assert (x' = c0 :: w0 ++ q) as -> by (inversion S'; congruence). exact S'. }
          eapply N_glue; [eassumption|eassumption|exact C1|eapply Glue_text; [exact C4|exact C2|apply B; left; reflexivity|apply B; right; left; reflexivity]|].
          intros Hm. split; [auto|]. intros z [E|E]; discriminate E.
        * destruct g; [|eapply N_space; try eassumption; discriminate].
          assert (B : forall kw, In kw [lit "plus"; lit "minus"] -> stretch kw (v ++ q) None (v ++ q)).
          { intros kw Hk. destruct (stretch_sp kw [] None [] (v ++ q) Hk) as (x' & Hx' & S'); [right; split; [reflexivity|exists v; auto]|apply Stretch_none; intros z (w & _ & E); destruct w, Hk as [<-|[<-|[]]]; discriminate E|].
            cbn [app] in S'. assert (x' = v ++ q) as -> by (inversion S'; congruence). exact S'. }
          eapply N_glue; [eassumption|eassumption|exact C1|eapply Glue_text; [exact C4|exact C2|apply B; left; reflexivity|apply B; right; left; reflexivity]|].
          intros Hm. split; [auto|]. intros z [E|E]; discriminate E.
      + rewrite (ok_ne _ _ O) in * by discriminate. eapply N_space; try eassumption. intros Hg. destruct (C3 Hg) as [D1 D2]. split; [exact D1|apply A, D2].
    - (* a length in braces *)
      exists (c0 :: w0 ++ q). split; [apply ok_here|]. rewrite <- app_assoc. eapply N_space_braced; [eassumption..| |eassumption|eassumption|eassumption|assumption].
      match goal with H1 : control _ t _ |- _ => apply control_in in H1; [|ne]; flat_in H1; rewrite <- app_assoc; exact H1 end.
    - exists (c0 :: w0 ++ q). split; [apply ok_here|]. rewrite <- app_assoc. eapply N_hspace; [eassumption| |eassumption..].
      match goal with H1 : control _ t _ |- _ => apply control_in in H1; [|ne]; flat_in H1; rewrite <- app_assoc; exact H1 end.
    - exists (c0 :: w0 ++ q). split; [apply ok_here|]. rewrite <- app_assoc. match goal with H1 : control _ t _ |- _ => apply control_in in H1; [|ne]; flat_in H1 end. eapply N_glue_braced; eassumption.
    - exists (c0 :: w0 ++ q). split; [apply ok_here|]. rewrite <- app_assoc. match goal with H1 : control _ t _ |- _ => apply control_in in H1; [|ne]; flat_in H1 end. eapply N_hspace_glue; eassumption.
    - (* dots *)
      match goal with H1 : control _ t _ |- _ => apply control_sp in H1 as (x & O & C) end. exists x. split; [exact O|]. rewrite <- app_assoc.
      replace (match r with c :: _ => if (c =? 46) || (c =? 44) then 8230 else 8943 | [] => 8943 end)
        with (match r ++ x with c :: _ => if (c =? 46) || (c =? 44) then 8230 else 8943 | [] => 8943 end); [apply N_dots; assumption|].
      destruct r as [|c r]; [|reflexivity]. cbn [app]. assert (W : forall c, is_ws c = true -> (if (c =? 46) || (c =? 44) then 8230 else 8943) = 8943) by (intros c Hc; destruct (ws_not_digit c Hc) as (_ & W1 & W2); apply N.eqb_neq in W1, W2; rewrite W1, W2; reflexivity).
      destruct O as [->|(_ & [|c v] & Hv & ->)]; [apply W, c0_ws| |apply W, (white_head_ws _ _ Hv)]. cbn [app]. destruct Hq as [Q1 _]. destruct q as [|c r]; [reflexivity|]. cbn in Q1.
      destruct (N.eqb_spec c 46) as [->|_]; [tauto|]. destruct (N.eqb_spec c 44) as [->|_]; [tauto|reflexivity].
    - (* buildrel *)
      match goal with H : delimited _ s x s' |- _ => assert (s <> []) by (destruct H; discriminate); apply (delimited_off (c0 :: w0 ++ q)) in H; [|apply back_lit; reflexivity] end. go.
    - (* arguments *)
      repeat step. match goal with O : ok s x |- _ => rewrite (ok_ne _ _ O) by ne end. match goal with O : ok s' ?x, IH : forall _, ok s' _ -> _ |- _ => destruct (IH x O) as (x' & O' & A) end.
      exists x'. split; [exact O'|]. eapply A_whole; eassumption.
    - match goal with O : ok _ x |- _ => rewrite (ok_ne _ _ O) by ne end. match goal with IH : forall _, ok s' _ -> _ |- _ => destruct (IH _ (ok_here s')) as (x' & O' & A) end.
      exists x'. split; [exact O'|]. repeat (first [rewrite <- app_assoc | progress cbn [app]]). eapply A_inside; eassumption.
    - repeat step. match goal with O : ok s x |- _ => rewrite (ok_ne _ _ O) by ne end. match goal with O : ok s' ?x, IH : forall _, ok s' _ -> _ |- _ => destruct (IH x O) as (x' & O' & A) end.
      exists x'. split; [exact O'|]. eapply A_token; eassumption.
    - (* scripts *)
      exists x. split; [assumption|]. apply S_none; (apply starts_sp; [auto|assumption|assumption]).
    - match goal with O : ok _ x |- _ => rewrite (ok_ne _ _ O) by ne; clear O end. repeat step. eexists; split; [eassumption|]. match goal with H : no_script _, O : ok _ _ |- _ => apply (no_script_sp _ _ O) in H end. final.
    - match goal with O : ok _ x |- _ => rewrite (ok_ne _ _ O) by ne; clear O end. repeat step. eexists; split; [eassumption|]. match goal with H : no_script _, O : ok _ _ |- _ => apply (no_script_sp _ _ O) in H end. final.
    - match goal with O : ok _ x |- _ => rewrite (ok_ne _ _ O) by ne; clear O end. repeat step. eexists; split; [eassumption|]. match goal with H : no_script _, O : ok _ _ |- _ => apply (no_script_sp _ _ O) in H end. final.
    - match goal with O : ok _ x |- _ => rewrite (ok_ne _ _ O) by ne; clear O end. repeat step. eexists; split; [eassumption|]. match goal with H : no_script _, O : ok _ _ |- _ => apply (no_script_sp _ _ O) in H end. final.
    - (* elements *)
      repeat step. match goal with H : placed _ _ _ _, O : ok s' _ |- _ => apply (placed_sp _ _ _ _ _ H) in O as (x1 & O1 & P1) end.
      match goal with IH : forall _, ok s'' _ -> _ |- _ => destruct (IH _ O1) as (x2 & O2 & P2) end. exists x2. split; [exact O2|]. eapply I_nucleus; eassumption.
    - match goal with IH : forall _, ok s _ -> _ |- _ => destruct (IH _ (ok_here s)) as (x2 & O2 & P2) end. exists x2. split; [exact O2|]. rewrite <- app_assoc.
      eapply (I_orphan b (s ++ c0 :: w0 ++ q) c (s' ++ c0 :: w0 ++ q)); [assumption|subst s; reflexivity|assumption|assumption].
    - match goal with H : control _ _ _ |- _ => apply control_sp in H as (x & O & C) end. exists x. split; [exact O|]. rewrite <- app_assoc. apply I_relax; [assumption|assumption|apply starts_sp; auto..].
  Qed.

  Lemma element_sp : forall s es r, element s es r -> exists x, ok r x /\ element (s ++ c0 :: w0 ++ q) es (r ++ x).
  Proof. apply all_sp. Qed.
End Space.

(** ** White space between two texts *)

#[local] Existing Instance nothing_known.

Lemma element_ne : forall s es r, element s es r -> s <> [].
Proof.
  intros s es r [s0 es0 l s' p s'' es' r0 H _ _|b s0 c s' es0 r0 _ -> _ _|b cs t x r0 _ H _|b t w x c r0 _ H _ _ _|b t r0 _ H _ _]; [apply (nucleus_ne _ _ _ _ _ _ H)| |apply solid_ne; eapply control_solid, H..].
  intros E. apply app_eq_nil in E as [_ E]. discriminate.
Qed.
Lemma formula_nil : forall es, formula None [] es -> es = [].
Proof.
  intros es H. inversion H as [al s es0 []|al b Hb|al b t H1 H2 E|al s es0 r es' He|al b s es0 E|]; subst; try reflexivity; try discriminate.
  - destruct (element_ne _ _ _ He eq_refl).
Qed.

Lemma formula_begins_space : forall q c0 w0, stands_off_spaced q -> c0 < 128 -> white (c0 :: w0) -> forall al s es, formula al s es -> al = None -> no_comment_left s ->
  exists b, blank b /\ @begins nothing_known (s ++ c0 :: w0 ++ q) es (b ++ q).
Proof.
  intros q c0 w0 Hq Hc0 Hw0 al s es H. revert al s es H. refine (formula_ind _ _ _ _ _ _ _).
  - intros al s es H. destruct H.
  - intros al b Hb _ _. exists (b ++ c0 :: w0). split; [apply blank_both; [exact Hb|apply FormulaDerive.blank_white, Hw0]|]. rewrite <- app_assoc. constructor.
  - intros al b t Hb Ht _ Hc. exfalso. apply Ht, (Hc b t). reflexivity.
  - intros al s es r es' He Hf IH Ha Hc. destruct (element_off [] nil_off _ _ _ He) as [H1 _]. destruct (element_sp q c0 w0 Hc0 Hw0 Hq _ _ _ He) as (x & Hx & H2).
    destruct Hx as [->|(-> & v & Hv & ->)].
    + destruct (IH Ha (left_ends _ _ H1 Hc)) as (b & Hb & H3). exists b. split; [exact Hb|]. eapply B_cons; eassumption.
    + subst al. apply formula_nil in Hf. subst es'. exists v. split; [apply FormulaDerive.blank_white, Hv|]. eapply B_cons; [exact H2|constructor].
  - intros. discriminate.
  - intros. discriminate.
Qed.

Theorem space_then : forall s es c0 w0 q, formula None s es -> no_comment_left s -> c0 < 128 -> white (c0 :: w0) -> stands_off_spaced q -> continues (s ++ c0 :: w0 ++ q) es q.
Proof.
  intros s es c0 w0 q H Hc Hc0 Hw0 Hq. destruct (formula_begins_space q c0 w0 Hq Hc0 Hw0 None s es H eq_refl Hc) as (b & Hb & H1).
  assert (H2 : @begins parsed (s ++ c0 :: w0 ++ q) es (b ++ q)) by (eapply (begins_more nothing_known); [|exact H1]; intros al0 s0 es0 []).
  split; [exact (proj1 (begins_continues _ _ _ H2))|]. intros v w. eapply begins_blank_shows; eassumption.
Qed.

Theorem space_both : forall s es c0 w0 q fs, formula None s es -> no_comment_left s -> c0 < 128 -> white (c0 :: w0) -> stands_off_spaced q -> formula None q fs ->
  formula None (s ++ c0 :: w0 ++ q) (es ++ fs).
Proof.
  intros s es c0 w0 q fs H Hc Hc0 Hw0 Hq Hf. destruct (formula_begins_space q c0 w0 Hq Hc0 Hw0 None s es H eq_refl Hc) as (b & Hb & H1). eapply begins_formula; [exact H1|]. apply formula_after; assumption.
Qed.
