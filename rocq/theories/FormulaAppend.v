(** * FormulaAppend: what is written after a formula does not change its meaning. *)

From Coq Require Import Ascii String List NArith ZArith Bool Lia Arith.
From Verif Require Import Base Float32 Event Tables Prim PrimTable Lex Macros Primitives Spans Parser
  SpecLex SpecNum LexFacts LexMore LexNum PrimFacts KeepRun Measure Order Terminate Api Sim SimRun SpanFacts MacroRun SpecFormula FormulaLex
  FormulaActs FormulaNucleus FormulaNucleus2 FormulaNucleus3 FormulaNucleus4 FormulaStep FormulaPrefix FormulaCompose FormulaDerive FormulaProps
  SpecFault FormulaFault FormulaFirst SpecBeyond FormulaDecide FormulaDecide2 FormulaCore Keep SpecAppend.
Import ListNotations.
Open Scope N_scope.
Open Scope list_scope.

Strategy 1000 [parse parse_fuel].

Definition solid (s : str) : Prop := exists x, In x s /\ is_ws x = false.

Lemma solid_not_white : forall s, solid s -> ~ white s.
Proof. intros s (x & Hx & E) H. unfold white in H. rewrite forallb_forall in H. rewrite (H x Hx) in E. discriminate. Qed.
Lemma solid_in : forall a c r, is_ws c = false -> solid (a ++ c :: r).
Proof. intros a c r H. exists c. split; [apply in_elt|exact H]. Qed.
Lemma solid_more : forall a s, solid s -> solid (a ++ s).
Proof. intros a s (x & Hx & E). exists x. split; [apply in_or_app; right; exact Hx|exact E]. Qed.
Lemma solid_ends : forall r s, ends r s -> solid r -> solid s.
Proof. intros r s (a & ->). apply solid_more. Qed.
Lemma solid_back : forall s, In 92 s -> solid s.
Proof. intros s H. exists 92. split; [exact H|reflexivity]. Qed.
Lemma control_solid : forall b cs t r, control cs t r -> solid (b ++ t).
Proof. intros b cs t r (w & -> & _). apply solid_in. reflexivity. Qed.

Lemma white_left : forall a b, white (a ++ b) -> white a.
Proof. intros a b H. unfold white in *. rewrite forallb_app in H. apply andb_prop in H. tauto. Qed.
Lemma white_right : forall a b, white (a ++ b) -> white b.
Proof. intros a b H. unfold white in *. rewrite forallb_app in H. apply andb_prop in H. tauto. Qed.

Lemma letters_b : forall l, forallb (fun c => (65 <=? c) && (c <=? 90) || (97 <=? c) && (c <=? 122)) l = true -> Forall letter l.
Proof.
  intros l H. apply Forall_forall. intros c Hc. rewrite forallb_forall in H. specialize (H c Hc). unfold letter.
  apply orb_prop in H as [H|H]; apply andb_prop in H as [H1 H2]; apply N.leb_le in H1, H2; lia.
Qed.

Section Off.
  Variable q : str.
  Hypothesis Hq : stands_off q.

  Lemma next_off : forall (P : char -> Prop) r, (forall c, P c -> goes_with c) -> not_next P r -> not_next P (r ++ q).
  Proof.
    intros P [|c r] HP H; [|exact H]. cbn [app]. destruct Hq as [H1 _]. destruct q as [|c r]; [exact I|]. cbn in *. intros Hc. apply H1, HP, Hc.
  Qed.
  Lemma white_head : forall l c r, q = l ++ c :: r -> white l -> l = [].
  Proof.
    intros [|x l] c r E Hw; [reflexivity|]. destruct Hq as [H1 _]. rewrite E in H1. cbn in H1. exfalso. apply H1. unfold goes_with.
    unfold white in Hw. cbn [forallb] in Hw. apply andb_prop in Hw as [Hw _]. auto.
  Qed.

  (** After white space, what follows starts in [s], or at the start of [q]. *)
  Lemma cut_off : forall s w c r, white w -> s ++ q = w ++ c :: r ->
    (exists s', s = w ++ c :: s' /\ r = s' ++ q) \/ (white s /\ w = s /\ q = c :: r).
  Proof.
    intros s w c r Hw E. apply app_eq_app in E as (l & [(E1 & E2)|(E1 & E2)]).
    - destruct l as [|x l]; [right|left].
      + rewrite app_nil_r in E1. subst s. auto.
      + cbn in E2. injection E2 as <- E2. exists l. auto.
    - right. subst w. assert (l = []) by (eapply white_head; [exact E2|eapply white_right, Hw]). subst l. rewrite app_nil_r in *. auto.
  Qed.
  Lemma starts_cut : forall c s, starts c (s ++ q) -> starts c s \/ (white s /\ exists r, q = c :: r).
  Proof.
    intros c s (w & r & Hw & E). destruct (cut_off _ _ _ _ Hw E) as [(s' & -> & _)|(H & _ & Eq)]; [left; exists w, s'; auto|right; eauto].
  Qed.
  Lemma starts_off : forall c s, solid s -> ~ starts c s -> ~ starts c (s ++ q).
  Proof. intros c s Hs H H'. apply starts_cut in H' as [H'|[H' _]]; [contradiction|]. eapply solid_not_white; eassumption. Qed.
  Lemma starts_mark : forall c s, c = 94 \/ c = 95 -> ~ starts c s -> ~ starts c (s ++ q).
  Proof.
    intros c s Hc H H'. apply starts_cut in H' as [H'|(_ & r & E)]; [contradiction|]. destruct Hq as [H1 _]. rewrite E in H1. cbn in H1. apply H1. unfold goes_with. tauto.
  Qed.

  Lemma control_off : forall cs t r, control cs t r -> control cs (t ++ q) (r ++ q).
  Proof.
    intros cs t r (w & -> & Hw & Hn & Hc). exists w. split; [cbn [app]; rewrite <- !app_assoc; reflexivity|]. split; [exact Hw|].
    split; [apply next_off; [unfold goes_with; auto|exact Hn]|].
    destruct Hc as [(H1 & H2 & H3)|H3]; [left; split; [exact H1|]; split; [exact H2|]|right; exact H3].
    rewrite app_assoc. apply next_off; [unfold goes_with; auto|exact H3].
  Qed.

  Lemma delimiter_off : forall s c ty r, delimiter s c ty r -> delimiter (s ++ q) c ty (r ++ q).
  Proof.
    intros s c ty r [b c0 ty0 r0 Hb Hi|b cs t c0 ty0 r0 Hb Hc Hi]; rewrite <- app_assoc; [now apply D_char|]. eapply D_command; [exact Hb|apply control_off, Hc|exact Hi].
  Qed.
  Lemma delimiter_solid : forall s c ty r, delimiter s c ty r -> solid s.
  Proof.
    assert (Hd : forall c ty, In (c, ty) char_delims -> is_ws c = false).
    { intros c ty H. repeat (destruct H as [H|H]; [injection H as <- _; reflexivity|]). destruct H. }
    intros s c ty r [b c0 ty0 r0 Hb Hi|b cs t c0 ty0 r0 Hb Hc Hi]; [apply solid_in; eapply Hd, Hi|eapply control_solid, Hc].
  Qed.
  Lemma delimiter_opt_off : forall s o r, delimiter_opt s o r -> delimiter_opt (s ++ q) o (r ++ q).
  Proof.
    intros s o r [r0|s0 c ty r0 Hn Hd]; [apply DO_dot|]. eapply DO_some; [|apply delimiter_off, Hd].
    apply next_off; [intros c0 <-; unfold goes_with, numeric; auto|exact Hn].
  Qed.
  Lemma frac_delimiter_off : forall s o r, frac_delimiter s o r -> frac_delimiter (s ++ q) o (r ++ q).
  Proof.
    intros s o r [w r0 Hw|s0 c ty r0 Hn Hd]; [rewrite <- app_assoc; now apply FD_none|].
    eapply FD_some; [apply starts_off; [eapply delimiter_solid, Hd|exact Hn]|apply delimiter_off, Hd].
  Qed.
  Lemma frac_style_off : forall s o r, frac_style s o r -> frac_style (s ++ q) o (r ++ q).
  Proof.
    intros s sty r [w y sty0 r0 Hw Hy|b c sty0 r0 Hb Hc]; rewrite <- app_assoc; [|now apply FS_digit]. cbn [app]. rewrite <- app_assoc. now apply FS_group.
  Qed.
  Lemma one_off : forall s r, one_argument s r -> one_argument (s ++ q) (r ++ q).
  Proof.
    intros s r [w g r0 Hw Hg|b c r0 Hb H1 H2 H3 H4|b cs t r0 Hb Hc]; rewrite <- app_assoc.
    - cbn [app]. rewrite <- app_assoc. now apply OA_group.
    - now apply OA_char.
    - eapply OA_control; [exact Hb|apply control_off, Hc].
  Qed.
  Lemma one_ends : forall s r, one_argument s r -> ends r s.
  Proof.
    intros s r [w g r0 Hw Hg|b c r0 Hb H1 H2 H3 H4|b cs t r0 Hb Hc]; [apply ends_group|eapply ends_trans; [apply ends_cons|apply ends_app]|eapply control_ends_b, Hc].
  Qed.
  Lemma spaced_off : forall s r, spaced s r -> spaced (s ++ q) (r ++ q).
  Proof.
    intros s r [(-> & H)|(c & H1 & H2 & ->)]; [left; split; [reflexivity|apply next_off; [unfold goes_with; auto|exact H]]|right; exists c; auto].
  Qed.
  Lemma code_off : forall s z r, code_text s z r -> code_text (s ++ q) z (r ++ q).
  Proof.
    intros s z r [x z0 s0 r0 Hx Hn Hs|c r0 H1 H2|c r0 H1]; [rewrite <- app_assoc; apply CT_figures; [exact Hx| |apply spaced_off, Hs]|now apply CT_character|now apply CT_escaped].
    apply next_off; [|exact Hn]. intros c Hc. unfold goes_with. assert (Hd : digit c \/ 65 <= c <= 70).
    { unfold next_figure in Hc. destruct x as [|y x]; [left; exact Hc|]. destruct (N.eq_dec y 34) as [->|Hy]; [exact Hc|].
      left. revert Hc. destruct y as [|y]; [exact (fun H => H)|]. do 6 (destruct y as [y|y|]; try exact (fun H => H)). congruence. }
    destruct Hd as [Hd|Hd]; [right; left; unfold numeric; auto|left; unfold letter; lia].
  Qed.
  Lemma code_ends : forall s z r, code_text s z r -> ends r s.
  Proof.
    intros s z r [x z0 s0 r0 Hx Hn Hs|c r0 H1 H2|c r0 H1]; [eapply spaced_ends, Hs|exists [96; c]; reflexivity|exists [96; 92; c]; reflexivity].
  Qed.
  (** A word after white space. *)
  Lemma word_off : forall kw s w x, white w -> Forall letter (tl kw) -> (forall r, q <> kw ++ r) -> kw <> [] ->
    s ++ q = w ++ kw ++ x -> exists x', s = w ++ kw ++ x' /\ x = x' ++ q.
  Proof.
    intros [|k kw] s w x Hw Hl Hk Hn E; [congruence|]. cbn [app] in E. destruct (cut_off _ _ _ _ Hw E) as [(s' & -> & E2)|(_ & _ & Eq)]; [|exfalso; exact (Hk x Eq)].
    assert (H : exists x', s' = kw ++ x' /\ x = x' ++ q); [|destruct H as (x' & -> & ->); exists x'; auto].
    clear - Hq Hl E2. cbn [tl] in Hl. revert s' E2. induction Hl as [|c kw Hc Hl IH]; intros s' E2; [exists s'; auto|].
    destruct s' as [|y s']; cbn in E2.
    - destruct Hq as [H1 _]. rewrite <- E2 in H1. cbn in H1. exfalso. apply H1. unfold goes_with. auto.
    - injection E2 as <- E2. destruct (IH s' E2) as (x' & -> & ->). exists x'. auto.
  Qed.
  Lemma letter_head : forall kw r, not_next (fun c => ~ letter c) kw -> kw <> [] -> q <> kw ++ r.
  Proof.
    intros [|c kw] r H Hn E; [congruence|]. cbn in H, E. destruct Hq as [H1 _]. rewrite E in H1. cbn in H1. apply H. intros Hc. apply H1. unfold goes_with. auto.
  Qed.
  Lemma stretch_off : forall kw s p r, Forall letter kw -> kw <> [] -> stretch kw s p r -> stretch kw (s ++ q) p (r ++ q).
  Proof.
    intros kw s p r Hl Hn [s0 H|s0 x d y r0 (w & Hw & ->) Hd Hy].
    - apply Stretch_none. intros x (w & Hw & E). destruct (word_off kw s0 w x Hw) as (x' & -> & _); [destruct Hl; [constructor|assumption]| |exact Hn|exact E|].
      + intros r0. apply letter_head; [|exact Hn]. destruct Hl; [exact I|cbn; tauto].
      + apply (H x'). exists w. auto.
    - eapply Stretch_some; [|exact Hd|apply spaced_off, Hy]. exists w. split; [exact Hw|]. rewrite <- !app_assoc. reflexivity.
  Qed.
  Lemma glue_off : forall s d p m r, glue_text s d p m r -> glue_text (s ++ q) d p m (r ++ q).
  Proof.
    intros s d p m r [x d0 s0 s1 p0 s2 m0 r0 Hx Hs Hp Hm]. rewrite <- app_assoc. eapply Glue_text; [exact Hx|apply spaced_off, Hs|apply stretch_off; [| |exact Hp]|apply stretch_off; [| |exact Hm]]; try discriminate.
    all: apply letters_b; reflexivity.
  Qed.
  Lemma after_number_off : forall n r, after_number n r -> after_number n (r ++ q).
  Proof.
    intros n r [(H1 & H2)|(p & r' & Hp & -> & H)]; [left; split; [exact H1|]|right; exists p, (r' ++ q); split; [exact Hp|split; [reflexivity|]]]; (apply next_off; [unfold goes_with; auto|assumption]).
  Qed.
  Lemma limits_letters : Forall letter (tl (lit "\limits")) /\ Forall letter (tl (lit "\nolimits")) /\ Forall letter (tl hline) /\ Forall letter (tl hdashline).
  Proof. repeat match goal with |- _ /\ _ => split end; apply letters_b; reflexivity. Qed.
  Lemma modifiers_off : forall p s p' r, modifiers p s p' r -> modifiers p (s ++ q) p' (r ++ q).
  Proof.
    destruct limits_letters as (L1 & L2 & _). intros p s p' r H. induction H as [p s H|p w s p' r Hw H IH|p w s p' r Hw H IH].
    - apply M_none. intros w r Hw. destruct Hq as [_ Hl]. split; intros E; (apply word_off in E as (x' & -> & _); [destruct (H w x' Hw) as [A B]; first [exact (A eq_refl)|exact (B eq_refl)]|exact Hw|assumption|intros r0; apply Hl|discriminate]).
    - rewrite <- !app_assoc. now apply M_limits.
    - rewrite <- !app_assoc. now apply M_nolimits.
  Qed.
  Lemma modifiers_ends : forall p s p' r, modifiers p s p' r -> ends r s.
  Proof.
    intros p s p' r H. induction H as [p s H|p w s p' r Hw H IH|p w s p' r Hw H IH]; [exists []; reflexivity|..]; (eapply ends_trans; [exact IH|]; rewrite app_assoc; apply ends_app).
  Qed.
  Lemma placed_off : forall l s p r, placed l s p r -> placed l (s ++ q) p (r ++ q) /\ ends r s.
  Proof.
    intros l s p r H. unfold placed in *. destruct (fst l); [split; [apply modifiers_off, H|eapply modifiers_ends, H]|]. destruct H as [-> ->]. split; [auto|exists []; reflexivity].
  Qed.
  Lemma no_script_off : forall r, no_script r -> no_script (r ++ q).
  Proof. intros r H. apply next_off; [unfold goes_with; tauto|exact H]. Qed.

  (** Delimiters that start with a backslash. *)
  Definition one_back (o : str) : Prop := exists o', o = 92 :: o' /\ ~ In 92 o'.

  Lemma prefix_off : forall o s y u, one_back o -> In 92 u -> ~ prefix o (y :: s ++ u) -> ~ prefix o (y :: (s ++ u) ++ q).
  Proof.
    intros o s y u (o' & -> & Ho) Hu H [r E]. cbn in E. injection E as -> E. apply app_eq_app in E as (l & [(E1 & E2)|(E1 & E2)]).
    - apply H. exists l. rewrite E1. reflexivity.
    - apply Ho. rewrite E1. apply in_or_app. left. apply in_or_app. right. exact Hu.
  Qed.
  Lemma enclosed_back : forall o c s a r, one_back c -> enclosed o c s a r -> In 92 s.
  Proof.
    intros o c s a r (c' & -> & _) H. induction H as [r|x s a r _ _ _ _ H IH|x s a r _ _ H IH|t s a r Ht H IH|s a r1 b r H IH _ _]; [left; reflexivity|right; exact IH|left; reflexivity| |].
    - right. apply in_or_app. right. right. exact IH.
    - apply in_or_app. right. exact IH.
  Qed.
  Lemma enclosed_off : forall o c s a r, one_back o -> one_back c -> enclosed o c s a r -> enclosed o c (s ++ q) a (r ++ q).
  Proof.
    intros o c s a r Ho Hc H. induction H as [r|x s a r H1 H2 H3 H4 H IH|x s a r H3 H4 H IH|t s a r Ht H IH|s a r1 b r H IH H' IH'].
    - rewrite <- app_assoc. apply enc_close.
    - pose proof (enclosed_back _ _ _ _ _ Hc H) as Hb. cbn [app]. apply enc_char; [exact H1|exact H2| | |exact IH];
        [exact (prefix_off o [] x s Ho Hb H3)|exact (prefix_off c [] x s Hc Hb H4)].
    - pose proof (enclosed_back _ _ _ _ _ Hc H) as Hb. cbn [app]. apply enc_escape; [| |exact IH];
        [exact (prefix_off o [x] 92 s Ho Hb H3)|exact (prefix_off c [x] 92 s Hc Hb H4)].
    - cbn [app]. rewrite <- app_assoc. cbn [app]. apply enc_comment; assumption.
    - rewrite <- app_assoc. eapply enc_nest; eassumption.
  Qed.
  Lemma enclosed_ends : forall o c s a r, enclosed o c s a r -> ends r s.
  Proof.
    intros o c s a r H. induction H as [r|x s a r _ _ _ _ H IH|x s a r _ _ H IH|t s a r Ht H IH|s a r1 b r H IH _ IH']; [apply ends_app|..].
    - eapply ends_trans; [exact IH|apply ends_cons].
    - eapply ends_trans; [exact IH|exists [92; x]; reflexivity].
    - eapply ends_trans; [exact IH|exists (37 :: t ++ [10]); cbn; rewrite <- app_assoc; reflexivity].
    - eapply ends_trans; [exact IH'|]. eapply ends_trans; [exact IH|apply ends_app].
  Qed.
  Lemma delimited_back : forall c s a r, one_back c -> delimited c s a r -> In 92 s.
  Proof.
    intros c s a r (c' & -> & _) H. induction H as [r|x s a r _ _ _ _ H IH|x s a r _ H IH|t s a r Ht _ H IH|g s a r Hg _ H IH]; [left; reflexivity|right; exact IH|left; reflexivity|..];
      (right; apply in_or_app; right; right; exact IH).
  Qed.
  Lemma delimited_off : forall c s a r, one_back c -> delimited c s a r -> delimited c (s ++ q) a (r ++ q).
  Proof.
    intros c s a r Hc H. induction H as [r|x s a r H1 H2 H3 H4 H IH|x s a r H4 H IH|t s a r Ht H4 H IH|g s a r Hg H4 H IH]; try pose proof (delimited_back _ _ _ _ Hc H) as Hb.
    - rewrite <- app_assoc. apply del_found.
    - cbn [app]. apply del_char; try assumption. exact (prefix_off c [] x s Hc Hb H4).
    - cbn [app]. apply del_escape; try assumption. exact (prefix_off c [x] 92 s Hc Hb H4).
    - cbn [app]. rewrite <- app_assoc. cbn [app]. apply del_comment; try assumption. destruct Hc as (c' & -> & _). intros [r0 E]. discriminate.
    - cbn [app]. rewrite <- app_assoc. cbn [app]. apply del_group; try assumption. destruct Hc as (c' & -> & _). intros [r0 E]. discriminate.
  Qed.
  Lemma delimited_ends : forall c s a r, delimited c s a r -> ends r s.
  Proof.
    intros c s a r H. induction H as [r|x s a r _ _ _ _ H IH|x s a r _ H IH|t s a r Ht _ H IH|g s a r Hg _ H IH]; [apply ends_app|..].
    - eapply ends_trans; [exact IH|apply ends_cons].
    - eapply ends_trans; [exact IH|exists [92; x]; reflexivity].
    - eapply ends_trans; [exact IH|exact (ends_group [] _ _ _ _)].
    - eapply ends_trans; [exact IH|exact (ends_group [] _ _ _ _)].
  Qed.
  Lemma lines_ends : forall s ls r, lines s ls r -> ends r s.
  Proof.
    intros s ls r H. induction H as [s H|w s ls r Hw H IH|w s ls r Hw H IH]; [exists []; reflexivity|..]; (eapply ends_trans; [exact IH|]; rewrite app_assoc; apply ends_app).
  Qed.
  Lemma lines_off : forall s ls r, solid r -> lines s ls r -> lines (s ++ q) ls (r ++ q).
  Proof.
    destruct limits_letters as (_ & _ & L1 & L2). intros s ls r Hr H. induction H as [s H|w s ls r Hw H IH|w s ls r Hw H IH].
    - assert (Hk : forall kw w r, Forall letter (tl kw) -> kw <> [] -> white w -> s ++ q = w ++ kw ++ r -> exists x, s = w ++ kw ++ x).
      { intros [|k kw] w r Hl Hn Hw E; [congruence|]. destruct (cut_off _ _ _ _ Hw E) as [(s' & -> & E2)|(Hs & _ & _)]; [|exfalso; eapply solid_not_white; eassumption].
        assert (Hx : exists x', s' = kw ++ x'); [|destruct Hx as (x' & ->); exists x'; reflexivity].
        clear - Hq Hl E2. cbn [tl] in Hl. revert s' E2. induction Hl as [|c kw Hc Hl IH]; intros s' E2; [exists s'; auto|]. destruct s' as [|y s']; cbn in E2.
        - destruct Hq as [H1 _]. rewrite <- E2 in H1. cbn in H1. exfalso. apply H1. unfold goes_with. auto.
        - injection E2 as <- E2. destruct (IH s' E2) as (x' & ->). exists x'. auto. }
      apply L_none. intros w r Hw. split; intros E; (apply Hk in E as (x & E); [|assumption|discriminate|exact Hw]); destruct (H w x Hw) as [A B]; first [exact (A E)|exact (B E)].
    - rewrite <- !app_assoc. apply L_solid; auto.
    - rewrite <- !app_assoc. apply L_dashed; auto.
  Qed.
  Lemma env_args_off : forall name s e r, solid r -> env_args name s e r -> env_args name (s ++ q) e (r ++ q).
  Proof.
    intros name s e r Hr H. destruct H; repeat (first [rewrite <- app_assoc | progress cbn [app]]); try (econstructor; eassumption).
    apply EA_starred; [assumption|]. apply starts_off; assumption.
  Qed.

  Lemma env_name : forall name s e r, env_args name s e r -> ~ In 92 name.
  Proof.
    set (l := map fst environments ++ map fst starred_matrices ++ map fst pair_environments ++ [lit "array"; lit "darray"; lit "subarray"]).
    assert (A : forallb (fun n => negb (existsb (N.eqb 92) n)) l = true) by (vm_compute; reflexivity). rewrite forallb_forall in A.
    intros name s e r He. assert (Hn : In name l).
    { unfold l. rewrite !in_app_iff. destruct He as [name e s H|name d s H _|name d w t a r H _ _|w t cols r n _ _ _ _|w t cols r n _ _ _ _|w t a r _ _|name g w ds p r H _ _ _ _ _].
      - left. exact (in_map fst _ _ H).
      - right. left. exact (in_map fst _ _ H).
      - right. left. exact (in_map fst _ _ H).
      - right. right. right. left. reflexivity.
      - right. right. right. right. left. reflexivity.
      - right. right. right. right. right. left. reflexivity.
      - right. right. left. exact (in_map fst _ _ H). }
    intros Hi. specialize (A name Hn). apply negb_true_iff in A. enough (existsb (N.eqb 92) name = true) by congruence. apply existsb_exists. exists 92. auto.
  Qed.
  Lemma back_lit : forall o, match o with 92 :: o' => negb (existsb (N.eqb 92) o') | _ => false end = true -> one_back o.
  Proof.
    intros [|x o] H; [discriminate|]. destruct (N.eq_dec x 92) as [->|Hx].
    - exists o. split; [reflexivity|]. intros Hi. apply negb_true_iff in H. enough (existsb (N.eqb 92) o = true) by congruence. apply existsb_exists. exists 92. auto.
    - exfalso. revert H. destruct x as [|x]; [discriminate|]. do 7 (destruct x as [x|x|]; try discriminate). congruence.
  Qed.
  Lemma env_back : forall name, ~ In 92 name -> one_back (begin_of name) /\ one_back (end_of name).
  Proof.
    intros name H. split; [exists (lit "begin{" ++ name ++ lit "}")|exists (lit "end{" ++ name ++ lit "}")]; (split; [reflexivity|]); rewrite !in_app_iff; intros [Hi|[Hi|Hi]]; try contradiction; cbn in Hi;
      repeat (destruct Hi as [Hi|Hi]; [discriminate|]); exact Hi.
  Qed.

  Lemma ends_l : forall r a s, ends r s -> ends r (a ++ s).
  Proof. intros r a s H. eapply ends_trans; [exact H|apply ends_app]. Qed.
  Lemma ends_c : forall r c s, ends r s -> ends r (c :: s).
  Proof. intros r c s H. eapply ends_trans; [exact H|apply ends_cons]. Qed.

  Context {KN : Known}.

  Definition nuc_off (h : bool) (s : str) (es : list event) (l : limits) (r : str) : Prop := solid s /\ ends r s /\ nucleus h (s ++ q) es l (r ++ q).

  (** Replaces a hypothesis by the one about the longer text. *)
  Ltac flat_in H := repeat (first [rewrite <- app_assoc in H | progress cbn [app] in H]).
  Ltac solid_tac := first [assumption|apply solid_in; (assumption || reflexivity)].
  Ltac off H := lazymatch type of H with
    | control _ _ _ => apply control_off in H
    | delimiter _ _ _ _ => apply delimiter_off in H
    | delimiter_opt _ _ _ => apply delimiter_opt_off in H
    | frac_delimiter _ _ _ => apply frac_delimiter_off in H
    | frac_style _ _ _ => apply frac_style_off in H
    | one_argument _ _ => apply one_off in H
    | spaced _ _ => apply spaced_off in H
    | code_text _ _ _ => apply code_off in H
    | glue_text _ _ _ _ _ => apply glue_off in H
    | no_script _ => apply no_script_off in H
    | after_number _ _ => apply after_number_off in H
    | ~ starts 94 _ => apply starts_mark in H; [|left; reflexivity]
    | ~ starts 95 _ => apply starts_mark in H; [|right; reflexivity]
    | ~ starts _ _ => apply starts_off in H; [|solid_tac]
    | nucleus _ (_ ++ q) _ _ _ => idtac
    | arguments _ _ (_ ++ q) _ _ => idtac
    | scripts _ _ (_ ++ q) _ _ => idtac
    end.
  Ltac offs := repeat match goal with H : _ |- _ => off H; flat_in H; revert H end; intros.
  Ltac open := repeat match goal with H : nuc_off _ _ _ _ _ |- _ => destruct H as (? & ? & ?) | H : ends _ _ /\ _ |- _ => destruct H end.
  Ltac sol := first [match goal with H : control _ ?t _ |- solid (_ ++ ?t) => eapply control_solid, H end|apply solid_in; (assumption || reflexivity)].
  Ltac ends_go := repeat first [eassumption|apply ends_refl|apply ends_l|apply ends_c].
  Ltac know H := lazymatch type of H with
    | delimiter _ _ _ _ => apply delimiter_ends in H
    | delimiter_opt _ _ _ => apply delimiter_opt_ends in H as [H _]
    | frac_delimiter _ _ _ => apply frac_delimiter_shorter in H as [H _]
    | frac_style _ _ _ => apply frac_style_shorter in H as [H _]
    | one_argument _ _ => apply one_ends in H
    | code_text _ _ _ => apply code_ends in H
    | glue_text _ _ _ _ _ => apply glue_ends in H as [H _]
    end.
  Ltac ends_tac := repeat match goal with H : _ |- _ => know H end;
    first [match goal with H : control _ ?t ?r |- ends _ (_ ++ ?t) => eapply ends_trans; [|eapply control_ends_b, H] end|idtac]; ends_go.
  Ltac finish := offs; repeat (first [rewrite <- app_assoc | progress cbn [app]]); econstructor; eassumption.
  Ltac three := open; split; [sol|]; split; [ends_tac|].
  Ltac two := open; split; [ends_tac|].

  Lemma all_off :
    (forall h s es l r, nucleus h s es l r -> nuc_off h s es l r) /\
    (forall s es, over s es -> True) /\
    (forall h ks s ess r, arguments h ks s ess r -> ends r s /\ arguments h ks (s ++ q) ess (r ++ q)) /\
    (forall p es s es' r, scripts p es s es' r -> ends r s /\ scripts p es (s ++ q) es' (r ++ q)) /\
    (forall s es r, element s es r -> ends r s /\ element (s ++ q) es (r ++ q)) /\
    (forall al s es, formula al s es -> True).
  Proof.
    apply (@meaning_all KN); intros; try exact I.
    all: try solve [three; finish|two; finish].
    - (* a character *)
      split; [|split; [ends_go|rewrite <- app_assoc; now apply N_char]]. apply solid_in. destruct (is_ws c) eqn:Ew; [|reflexivity]. unfold special in H0. rewrite Ew, !orb_true_r in H0. discriminate.
    - (* a number *)
      split; [|split; [ends_go|rewrite <- !app_assoc; apply N_number; [assumption|assumption|apply after_number_off; assumption]]].
      apply solid_more. destruct H0 as (_ & c & n' & -> & Hc). apply (solid_in []). exact (digit_not_ws c Hc).
    - (* a digit *)
      split; [apply solid_in; exact (digit_not_ws c H0)|split; [ends_go|rewrite <- app_assoc; now apply N_digit]].
    - (* left and right *)
      match goal with H1 : control _ t s, H2 : delimiter_opt s o _, H3 : enclosed _ _ _ g s', H4 : delimiter_opt s' c r |- _ => rename H1 into C1, H2 into C2, H3 into C3, H4 into C4 end.
      split; [eapply control_solid, C1|]. split.
      + eapply ends_trans; [|eapply control_ends_b, C1]. eapply ends_trans; [|apply (delimiter_opt_ends _ _ _ C2)]. eapply ends_trans; [apply (delimiter_opt_ends _ _ _ C4)|ends_go].
      + rewrite <- app_assoc. apply control_off in C1. apply delimiter_opt_off in C2, C4. apply enclosed_off in C3; try (apply back_lit; reflexivity). flat_in C2. flat_in C3.
        eapply N_left; eassumption.
    - (* an environment *)
      match goal with H1 : control _ t _, H2 : env_args _ _ _ _, H3 : lines _ _ _, H4 : enclosed _ _ _ _ _ |- _ => rename H1 into C1, H2 into C2, H3 into C3, H4 into C4 end.
      pose proof (env_name _ _ _ _ C2) as Hn. apply env_back in Hn as [Hn1 Hn2]. pose proof (solid_back _ (enclosed_back _ _ _ _ _ Hn2 C4)) as Hs2.
      pose proof (solid_ends _ _ (lines_ends _ _ _ C3) Hs2) as Hs1.
      split; [eapply control_solid, C1|]. split.
      + eapply ends_trans; [|eapply control_ends_b, C1]. do 2 apply ends_l, ends_c. eapply ends_trans; [|eapply env_args_ends, C2]. eapply ends_trans; [|eapply lines_ends, C3]. eapply enclosed_ends, C4.
      + rewrite <- app_assoc. apply control_off in C1. flat_in C1. apply env_args_off in C2; [|exact Hs1]. apply lines_off in C3; [|exact Hs2]. apply enclosed_off in C4; [|assumption..]. eapply N_env; eassumption.
    - (* a length *)
      match goal with H1 : control _ t _, H2 : spaced _ _, H3 : g = true -> _ |- _ => rename H1 into C1, H2 into C2, H3 into C3 end.
      split; [eapply control_solid, C1|]. split; [eapply ends_trans; [eapply (spaced_ends x), C2|eapply control_ends_b, C1]|].
      rewrite <- app_assoc. apply control_off in C1. flat_in C1. apply spaced_off in C2. eapply N_space; try eassumption.
      intros Hg. destruct (C3 Hg) as [D1 D2]. split; [apply next_off; [unfold goes_with; auto|exact D1]|].
      intros r0. split; intros E.
      + destruct (word_off (lit "plus") r [] r0) as (x' & -> & _); [reflexivity|apply letters_b; reflexivity|intros; apply letter_head; [intros Hn; apply Hn; right; split; discriminate|discriminate]|discriminate|exact E|]. exact (proj1 (D2 x') eq_refl).
      + destruct (word_off (lit "minus") r [] r0) as (x' & -> & _); [reflexivity|apply letters_b; reflexivity|intros; apply letter_head; [intros Hn; apply Hn; right; split; discriminate|discriminate]|discriminate|exact E|]. exact (proj2 (D2 x') eq_refl).
    - (* a length in braces *)
      split; [sol|]. split; [ends_tac|]. rewrite <- app_assoc. eapply N_space_braced; [eassumption..| |eassumption|eassumption|eassumption|assumption].
      match goal with H1 : control _ t _ |- _ => apply control_off in H1; repeat (first [rewrite <- app_assoc in H1 | progress cbn [app] in H1]); rewrite <- app_assoc; exact H1 end.
    - split; [sol|]. split; [ends_tac|]. rewrite <- app_assoc. eapply N_hspace; [eassumption| |eassumption..].
      match goal with H1 : control _ t _ |- _ => apply control_off in H1; repeat (first [rewrite <- app_assoc in H1 | progress cbn [app] in H1]); rewrite <- app_assoc; exact H1 end.
    - (* stretchable lengths in braces *)
      split; [sol|]. split; [ends_tac|]. rewrite <- app_assoc.
      match goal with H1 : control _ t _ |- _ => apply control_off in H1; flat_in H1 end. eapply N_glue_braced; eassumption.
    - split; [sol|]. split; [ends_tac|]. rewrite <- app_assoc.
      match goal with H1 : control _ t _ |- _ => apply control_off in H1; flat_in H1 end. eapply N_hspace_glue; eassumption.
    - (* dots *)
      split; [sol|]. split; [ends_tac|]. rewrite <- app_assoc.
      replace (match r with c :: _ => if (c =? 46) || (c =? 44) then 8230 else 8943 | [] => 8943 end)
        with (match r ++ q with c :: _ => if (c =? 46) || (c =? 44) then 8230 else 8943 | [] => 8943 end).
      + apply N_dots; [assumption|apply control_off; assumption].
      + destruct r as [|c r]; [|reflexivity]. cbn [app]. destruct Hq as [H1 _]. destruct q as [|c r]; [reflexivity|]. cbn in H1.
        destruct (N.eqb_spec c 46) as [->|_]; [exfalso; apply H1; unfold goes_with, numeric; auto|]. destruct (N.eqb_spec c 44) as [->|_]; [exfalso; apply H1; unfold goes_with, numeric; auto|reflexivity].
    - (* generalised fractions *)
      open. split; [sol|]. split; [|finish].
      match goal with H1 : control _ t s1, H2 : frac_delimiter s1 _ _, H3 : frac_delimiter s2 _ _, H4 : frac_style s2' _ s3 |- _ =>
        apply control_ends in H1; apply frac_delimiter_shorter in H2 as [H2 _]; apply frac_delimiter_shorter in H3 as [H3 _]; apply frac_style_shorter in H4 as [H4 _];
        apply ends_l; eapply ends_trans; [|exact H1]; eapply ends_trans; [|exact H2]; eapply ends_trans; [|exact H3]; do 2 apply ends_l, ends_c; eapply ends_trans; [|exact H4] end.
      eapply ends_trans; eassumption.
    - (* side sets *)
      open. split; [sol|]. split; [|finish].
      match goal with H1 : control _ t s, H2 : one_argument s s1, H3 : one_argument s1 s2 |- _ =>
        apply control_ends in H1; apply one_ends in H2, H3; apply ends_l; eapply ends_trans; [|exact H1]; eapply ends_trans; [|exact H2]; eapply ends_trans; [|exact H3] end. assumption.
    - (* buildrel *)
      open. split; [sol|]. match goal with H1 : control _ t s, H2 : delimited _ s x s' |- _ => rename H1 into C1, H2 into C2 end. split.
      + eapply ends_trans; [|eapply control_ends_b, C1]. eapply ends_trans; [|eapply delimited_ends, C2]. assumption.
      + rewrite <- app_assoc. apply control_off in C1. apply delimited_off in C2; [|apply back_lit; reflexivity]. eapply N_buildrel; eassumption.
    - (* arguments *)
      open. split; [eapply ends_trans; eassumption|finish].
    - open. split; [eapply ends_trans; eassumption|finish].
    - (* scripts *)
      open. split; [|finish]. apply ends_l, ends_c. eapply ends_trans; [|eassumption]. apply ends_c. assumption.
    - open. split; [|finish]. apply ends_l, ends_c. eapply ends_trans; [|eassumption]. apply ends_c. assumption.
    - (* elements *)
      open. match goal with H : placed _ _ _ _ |- _ => apply placed_off in H as [C1 C2] end. split; [eapply ends_trans; [|eassumption]; eapply ends_trans; eassumption|].
      eapply I_nucleus; eassumption.
    - open. split; [apply ends_l; assumption|]. rewrite <- app_assoc. eapply (I_orphan b (s ++ q) c (s' ++ q)); [assumption|subst s; reflexivity|assumption|assumption].
  Qed.

  Lemma element_off : forall s es r, element s es r -> ends r s /\ element (s ++ q) es (r ++ q).
  Proof. apply all_off. Qed.
End Off.

(** ** A text after a formula *)

#[local] Existing Instance nothing_known.

Lemma left_ends : forall r s, ends r s -> no_comment_left s -> no_comment_left r.
Proof. intros r s (u & ->) H a t ->. apply (H (u ++ a)). rewrite <- app_assoc. reflexivity. Qed.

Lemma formula_begins : forall q, stands_off q -> forall al s es, formula al s es -> al = None -> no_comment_left s ->
  exists b, blank b /\ @begins nothing_known (s ++ q) es (b ++ q).
Proof.
  intros q Hq al s es H. revert al s es H. refine (formula_ind _ _ _ _ _ _ _).
  - intros al s es H. destruct H.
  - intros al b Hb _ _. exists b. split; [exact Hb|constructor].
  - intros al b t Hb Ht _ Hc. exfalso. apply Ht, (Hc b t). reflexivity.
  - intros al s es r es' He _ IH Ha Hc. destruct (element_off q Hq _ _ _ He) as [H1 H2]. destruct (IH Ha (left_ends _ _ H1 Hc)) as (b & Hb & H3).
    exists b. split; [exact Hb|]. eapply B_cons; eassumption.
  - intros. discriminate.
  - intros. discriminate.
Qed.

Lemma begins_more : forall K1 K2 : Known, (forall al s es, K1 al s es -> K2 al s es) -> forall s es r, @begins K1 s es r -> @begins K2 s es r.
Proof.
  intros K1 K2 HK s es r H. induction H as [s|s es s' es' r He H IH]; [constructor|]. eapply B_cons; [|exact IH]. apply (meaning_more K1 K2 HK), He.
Qed.

Lemma begins_blank_shows : forall s es b r v w, @begins parsed s es (b ++ r) -> blank b -> shows (new_parser s) v -> shows (new_parser r) w ->
  complete v -> complete w -> v = (es ++ fst w, snd w).
Proof.
  intros s es b r v w Hb Hbl Hv Hw Hcv Hcw.
  destruct (@begins_steps parsed parsed_sound _ _ _ Hb (mkSlice 0 0 s) None [] (mkSpans s [] 0) 1 0 eq_refl) as (c' & E & S1).
  change (at_top (mkSlice 0 0 s) None [] (mkSpans s [] 0) 1 0) with (new_parser s) in S1. apply (steps_shows _ _ _ S1) in Hv as (w' & Hw' & ->).
  assert (w' = w) as ->; [|reflexivity].
  refine (token_shows (at_top c' None [] (mkSpans s [] 0) 1 0) (new_parser r) c' (mkSlice 0 0 r) None [] [] w' w eq_refl eq_refl eq_refl eq_refl (Forall2_nil _) (csim_refl _) _ Hw' Hw Hcv Hcw).
  cbn [stxt]. rewrite <- (lex_token_blank b r Hbl). apply lex_token_same, E.
Qed.

Theorem formula_then : forall s es q, formula None s es -> no_comment_left s -> stands_off q -> continues (s ++ q) es q.
Proof.
  intros s es q H Hc Hq. destruct (formula_begins q Hq None s es H eq_refl Hc) as (b & Hb & H1).
  assert (H2 : @begins parsed (s ++ q) es (b ++ q)) by (eapply (begins_more nothing_known); [|exact H1]; intros al0 s0 es0 []).
  split; [exact (proj1 (begins_continues _ _ _ H2))|]. intros v w. eapply begins_blank_shows; eassumption.
Qed.

(** ** White space and comments before a formula *)

Lemma blank_both : forall a b, blank a -> blank b -> blank (a ++ b).
Proof. intros a b Ha Hb. induction Ha as [|c s Hc Ha IH|t s Ht Ha IH]; [exact Hb|now apply blank_ws|]. cbn [app]. rewrite <- app_assoc. now apply blank_comment. Qed.

Lemma nucleus_after : forall b h s es l r, blank b -> nucleus h s es l r -> nucleus h (b ++ s) es l r.
Proof.
  intros b h s es l r Hb H.
  destruct H; rewrite app_assoc;
    [eapply N_char|eapply N_number|eapply N_digit|eapply N_group|eapply N_symbol|eapply N_command|eapply N_sqrt|eapply N_root|eapply N_xarrow|eapply N_xarrow_below|eapply N_text|eapply N_operator|eapply N_class_char|eapply N_class_group|eapply N_left|eapply N_sized|eapply N_middle|eapply N_env|eapply N_substack|eapply N_textcolor|eapply N_colorbox|eapply N_fcolorbox|eapply N_space|eapply N_space_braced|eapply N_hspace|eapply N_glue|eapply N_glue_braced|eapply N_hspace_glue|eapply N_strut|eapply N_dots|eapply N_char_code|eapply N_mathop_char|eapply N_mathop_group|eapply N_genfrac|eapply N_sideset|eapply N_buildrel|eapply N_class_bare|eapply N_class_command|eapply N_mathop_bare|eapply N_mathop_command];
    first [eassumption|apply blank_both; assumption].
Qed.
Lemma element_after : forall b s es r, blank b -> element s es r -> element (b ++ s) es r.
Proof.
  intros b s es r Hb H. destruct H as [s es l s' p s'' es' r H1 H2 H3|b0 s c s' es r H1 H2 H3 H4|b0 cs t x r H1 H2 H3|b0 t w x c r H1 H2 H3 H4 H5|b0 t r H1 H2 H3 H4].
  - eapply I_nucleus; [apply nucleus_after; eassumption|eassumption..].
  - rewrite app_assoc. eapply I_orphan; [apply blank_both; assumption|eassumption..].
  - rewrite app_assoc. eapply I_switch; [apply blank_both; assumption|eassumption..].
  - rewrite app_assoc. eapply I_color; [apply blank_both; assumption|eassumption..].
  - rewrite app_assoc. eapply I_relax; [apply blank_both; assumption|eassumption..].
Qed.
Lemma formula_after : forall b al s es, blank b -> formula al s es -> formula al (b ++ s) es.
Proof.
  intros b al s es Hb H. destruct H as [al s es H|al b0 H|al b0 t H1 H2|al s es r es' H1 H2|k m b0 s es H1 H2 H3 H4 H5|k m b0 cs t s d s1 ls s2 es H1 H2 H3 H4 H5 H6 H7 H8].
  - destruct H.
  - apply F_end, blank_both; assumption.
  - rewrite app_assoc. apply F_end_comment; [apply blank_both; assumption|exact H2].
  - eapply F_element; [apply element_after; eassumption|exact H2].
  - rewrite app_assoc. apply F_mark; [apply blank_both; assumption|assumption..].
  - rewrite app_assoc. eapply F_row; [apply blank_both; assumption|eassumption..].
Qed.

Lemma begins_formula : forall s es r fs, @begins nothing_known s es r -> formula None r fs -> formula None s (es ++ fs).
Proof.
  intros s es r fs H Hf. induction H as [s|s es s' es' r He H IH]; [exact Hf|]. rewrite <- app_assoc. eapply F_element; [exact He|apply IH, Hf].
Qed.

Theorem formula_both : forall s es q fs, formula None s es -> no_comment_left s -> stands_off q -> formula None q fs -> formula None (s ++ q) (es ++ fs).
Proof.
  intros s es q fs H Hc Hq Hf. destruct (formula_begins q Hq None s es H eq_refl Hc) as (b & Hb & H1). eapply begins_formula; [exact H1|]. apply formula_after; assumption.
Qed.

(** ** A comment between two texts *)

Lemma comment_off : forall q, stands_off (37 :: q).
Proof.
  intros q. split; [|intros r; split; discriminate]. change (~ goes_with 37). unfold goes_with, letter, numeric, digit. intros H.
  repeat match goal with H : _ \/ _ |- _ => destruct H as [H|H] end; try discriminate; lia.
Qed.

Lemma formula_begins_comment : forall t q, ~ In 10 t -> forall al s es, formula al s es -> al = None ->
  exists b, blank b /\ @begins nothing_known (s ++ 37 :: t ++ 10 :: q) es (b ++ q).
Proof.
  intros t q Ht al s es H. revert al s es H. refine (formula_ind _ _ _ _ _ _ _).
  - intros al s es H. destruct H.
  - intros al b Hb _. exists (b ++ 37 :: t ++ [10]). split; [apply blank_both; [exact Hb|apply blank_comment; [exact Ht|constructor]]|].
    replace ((b ++ 37 :: t ++ [10]) ++ q) with (b ++ 37 :: t ++ 10 :: q); [constructor|]. rewrite <- app_assoc. cbn [app]. rewrite <- app_assoc. reflexivity.
  - intros al b u Hb Hu _. exists (b ++ 37 :: (u ++ 37 :: t) ++ [10]). split.
    + apply blank_both; [exact Hb|apply blank_comment; [|constructor]]. rewrite in_app_iff. intros [H|[H|H]]; [exact (Hu H)|discriminate|exact (Ht H)].
    + replace ((b ++ 37 :: (u ++ 37 :: t) ++ [10]) ++ q) with ((b ++ 37 :: u) ++ 37 :: t ++ 10 :: q); [constructor|].
      repeat (first [rewrite <- app_assoc | progress cbn [app]]). reflexivity.
  - intros al s es r es' He _ IH Ha. destruct (element_off _ (comment_off (t ++ 10 :: q)) _ _ _ He) as [_ H2]. destruct (IH Ha) as (b & Hb & H3).
    exists b. split; [exact Hb|]. eapply B_cons; eassumption.
  - intros. discriminate.
  - intros. discriminate.
Qed.

Theorem comment_then : forall s es t q, formula None s es -> ~ In 10 t -> continues (s ++ 37 :: t ++ 10 :: q) es q.
Proof.
  intros s es t q H Ht. destruct (formula_begins_comment t q Ht None s es H eq_refl) as (b & Hb & H1).
  assert (H2 : @begins parsed (s ++ 37 :: t ++ 10 :: q) es (b ++ q)) by (eapply (begins_more nothing_known); [|exact H1]; intros al0 s0 es0 []).
  split; [exact (proj1 (begins_continues _ _ _ H2))|]. intros v w. eapply begins_blank_shows; eassumption.
Qed.

Theorem comment_both : forall s es t q fs, formula None s es -> ~ In 10 t -> formula None q fs -> formula None (s ++ 37 :: t ++ 10 :: q) (es ++ fs).
Proof.
  intros s es t q fs H Ht Hf. destruct (formula_begins_comment t q Ht None s es H eq_refl) as (b & Hb & H1). eapply begins_formula; [exact H1|]. apply formula_after; assumption.
Qed.
