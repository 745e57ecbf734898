(** * FormulaPrefix: a text that starts with formulas, whatever follows. *)

From Coq Require Import Ascii String List NArith ZArith Bool Lia Arith.
From Verif Require Import Base Float32 Event Tables Prim PrimTable Lex Macros Primitives Spans Parser
  SpecLex SpecNum LexFacts LexMore LexNum PrimFacts Keep Measure Order Terminate Sim SimRun SpanFacts MacroRun
  SpecFormula FormulaLex FormulaActs FormulaNucleus FormulaNucleus2 FormulaNucleus3 FormulaNucleus4 FormulaStep.
Import ListNotations.
Open Scope N_scope.
Open Scope list_scope.

Strategy 1000 [parse parse_fuel].


Section Known.
Context {KN : Known}.

(** ** Texts with the same first token *)

Lemma parse_token_sim : forall p p' c c' al f, lex_token (stxt c) = lex_token (stxt c') ->
  Forall2 isim (p_buf p) (p_buf p') -> csim (p_macros p) (p_macros p') ->
  let x := parse (S f) (of_parser p c al) in let x' := parse (S f) (of_parser p' c' al) in
  stopped (fst x) \/ stopped (fst x') \/
  (same_res (script_sim [] []) (fst x) (fst x') /\ R [] [] (q_ist (snd x)) (q_ist (snd x'))) \/ exists y, fst x = Panic y /\ fst x' = Panic y.
Proof.
  intros p p' c c' al f Hl Hb Hm. cbv zeta. set (q := of_parser p c al). set (q' := of_parser p' c' al).
  assert (HR : forall d d', stxt d = stxt d' -> R [] [] (set_content d (q_ist q)) (set_content d' (q_ist q'))).
  { intros d d' E. split; [exact E|]. split; [exists (p_buf p), (p_buf p'); auto|cbn; auto 6]. }
  rewrite !parse_eq. change (stxt (i_content (q_ist q))) with (stxt c). change (stxt (i_content (q_ist q'))) with (stxt c').
  change (i_macros (q_ist q)) with (p_macros p). change (i_macros (q_ist q')) with (p_macros p'). rewrite <- Hl.
  destruct (lex_token (stxt c)) as [[[cs|ctx]|e|y|] r].
  - rewrite <- (Hm cs). destruct (ctx_get (p_macros p) cs) as [d|].
    + set (lim := _ || _). set (lim' := (max_expansion_depth <=? N.of_nat (length (s_exp (q_spans q')))) || _).
      destruct (expand_definition d r) as [[txt k]|e|y|].
      * destruct lim; [left; left; reflexivity|]. destruct lim'; [right; left; left; reflexivity|].
        destruct (add_span _ _ _ (add_total (blen txt) (q_spans q))) as [ra sp] eqn:Ea. apply add_span_never in Ea as (_ & _ & Ea).
        destruct (add_span _ _ _ (add_total (blen txt) (q_spans q'))) as [rb sp'] eqn:Eb. apply add_span_never in Eb as (_ & _ & Eb).
        destruct ra as [[]|?|?|]; try contradiction; [|subst; left; right; left; reflexivity].
        destruct rb as [[]|?|?|]; try contradiction; [|subst; right; left; right; left; reflexivity].
        match goal with |- context [parse f ?a] => match goal with |- context [parse f ?b] => destruct (parse_sim [] [] f a b) as [H|[H|H]]; [|left; exact H|right; left; exact H|right; right; left; exact H] end end.
        cbn [q_ist]. apply HR. reflexivity.
      * destruct lim; [left; left; reflexivity|]. destruct lim'; [right; left; left; reflexivity|].
        right. right. left. split; [reflexivity|]. apply HR. reflexivity.
      * right. right. left. split; [reflexivity|]. apply HR. reflexivity.
      * right. right. left. split; [exact I|]. apply HR. reflexivity.
    + right. right. left. unfold run_inner. cbn [q_ist set_ist].
      pose proof (r_atom [] [] _ _ (r_handle_prim [] [] cs) _ _ (HR (suffix_slice c r) (suffix_slice c' r) eq_refl)) as H.
      change (i_content (q_ist q)) with c. change (i_content (q_ist q')) with c'.
      destruct (parse_atom _ _) as [a b], (parse_atom _ _) as [a' b']. exact H.
  - right. right. left. unfold run_inner. cbn [q_ist set_ist].
    change (i_content (q_ist q)) with c. change (i_content (q_ist q')) with c'.
    pose proof (r_atom [] [] _ _ (r_handle_char [] [] (suffix_slice c ctx) (suffix_slice c' ctx) eq_refl)
      _ _ (HR (suffix_slice c r) (suffix_slice c' r) eq_refl)) as H.
    destruct (parse_atom _ _) as [a b], (parse_atom _ _) as [a' b']. exact H.
  - right. right. left. pose proof (HR (suffix_slice c r) (suffix_slice c' r) eq_refl) as HR'.
    destruct e; (split; [reflexivity || exact I|exact HR']).
  - right. right. right. exists y. split; reflexivity.
  - left. right. right. reflexivity.
Qed.

Lemma after_shows : forall p c al s v, p_stack p = ISub c al :: s -> p_buf p = [] -> shows p v ->
  shows_of (after s (parse parse_fuel (of_parser p c al))) v.
Proof.
  intros p c al s v Hs Hb Hv. apply shows_step in Hv. rewrite (next_step_text _ _ _ _ Hs) in Hv.
  destruct (trim_start (stxt c)) as [|x t] eqn:Et; cbn [is_nil] in Hv.
  - rewrite parse_fuel_S. apply after_blank; assumption.
  - exact Hv.
Qed.

Lemma token_shows : forall p p' c c' al s s' v v', p_stack p = ISub c al :: s -> p_stack p' = ISub c' al :: s' ->
  p_buf p = [] -> p_buf p' = [] -> Forall2 isim s s' -> csim (p_macros p) (p_macros p') ->
  lex_token (stxt c) = lex_token (stxt c') ->
  shows p v -> shows p' v' -> complete v -> complete v' -> v = v'.
Proof.
  intros p p' c c' al s s' v v' Hs Hs' Hb Hb' Hss Hm Hl Hv Hv' Hc Hc'.
  apply (after_shows _ _ _ _ _ Hs Hb) in Hv. apply (after_shows _ _ _ _ _ Hs' Hb') in Hv'.
  assert (Hbb : Forall2 isim (p_buf p) (p_buf p')) by (rewrite Hb, Hb'; constructor).
  pose proof (parse_token_sim p p' c c' al 65 Hl Hbb Hm) as Hx. cbv zeta in Hx. rewrite <- parse_fuel_S in Hx.
  revert Hx Hv Hv'. generalize (parse parse_fuel (of_parser p c al)) (parse parse_fuel (of_parser p' c' al)). intros x x' Hx Hv Hv'.
  assert (Hst : same_step (after s x) (after s' x')).
  { destruct Hx as [H|[H|[H|(y & H1 & H2)]]]; try (apply after_sim; [exact Hss|]; tauto).
    left. destruct x as [r q]. cbn in H1. subst r. cbn. exact I. }
  eapply same_step_shows; [exact Hst| |exact Hv|exact Hv'|exact Hc|exact Hc'].
  intros w w' _ H1 H2 H3 H4 H5. eapply sim_shows; eassumption.
Qed.

(** White space and comments before the input change nothing. *)
Theorem blank_shows : forall b s v v', blank b ->
  shows (new_parser (b ++ s)) v -> shows (new_parser s) v' -> complete v -> complete v' -> v = v'.
Proof.
  intros b s v v' Hb. eapply (token_shows (new_parser (b ++ s)) (new_parser s) _ _ None [] []); try reflexivity.
  - constructor.
  - apply csim_refl.
  - apply lex_token_blank, Hb.
Qed.

(** ** A text that starts with elements *)

Inductive begins : str -> list event -> str -> Prop :=
| B_nil : forall s, begins s [] s
| B_cons : forall s es s' es' r, element s es s' -> begins s' es' r -> begins s (es ++ es') r.

Lemma steps_shows : forall p es p', steps p es p' -> forall v, shows p v <-> exists w, shows p' w /\ v = (es ++ fst w, snd w).
Proof.
  intros p es p' H. induction H as [p|p p1 es p2 H1 H2 IH|p e p1 es p2 H1 H2 IH]; intros v.
  - split; [intros Hv; exists v; destruct v; auto|]. intros ([w1 w2] & Hw & ->). exact Hw.
  - rewrite shows_step, H1. cbn [shows_of]. apply IH.
  - rewrite shows_step, H1. cbn [shows_of]. split.
    + intros (v' & Hv & ->). apply IH in Hv as (w & Hw & ->). exists w. split; [exact Hw|reflexivity].
    + intros (w & Hw & ->). exists (es ++ fst w, snd w). split; [apply IH; exists w; auto|reflexivity].
Qed.

Lemma element_steps : sound -> forall s es r, element s es r -> forall c al K sp nx ac, trim_start (stxt c) = trim_start s ->
  exists c', trim_start (stxt c') = trim_start r /\ steps (at_top c al K sp nx ac) es (at_top c' al K sp nx ac).
Proof.
  intros Hsound s es r H c al K sp nx ac Hc. destruct (element_turn s es r al H) as (Hl & Ht).
  destruct (Ht c K sp nx ac Hc) as (IL & c' & H1 & H2 & H3). exists c'. split; [exact H3|].
  eapply st_cont; [exact H1|]. eapply means_steps; [exact H2|]. intros s1 al1 es1 _ Hf. eapply (formula_pops Hsound); [|exact Hf]. apply Nat.lt_succ_diag_r.
Qed.

Lemma begins_steps : sound -> forall s es r, begins s es r -> forall c al K sp nx ac, trim_start (stxt c) = trim_start s ->
  exists c', trim_start (stxt c') = trim_start r /\ steps (at_top c al K sp nx ac) es (at_top c' al K sp nx ac).
Proof.
  intros Hsound s es r H. induction H as [s|s es s' es' r He Hb IH]; intros c al K sp nx ac Hc.
  - exists c. split; [exact Hc|constructor].
  - destruct (element_steps Hsound _ _ _ He c al K sp nx ac Hc) as (c1 & E1 & S1). destruct (IH c1 al K sp nx ac E1) as (c2 & E2 & S2).
    exists c2. split; [exact E2|]. eapply steps_trans; eassumption.
Qed.

Theorem begins_shows : sound -> forall s es r v w, begins s es r -> shows (new_parser s) v -> shows (new_parser r) w -> complete v -> complete w ->
  v = (es ++ fst w, snd w).
Proof.
  intros Hsound s es r v w Hb Hv Hw Hcv Hcw.
  destruct (begins_steps Hsound _ _ _ Hb (mkSlice 0 0 s) None [] (mkSpans s [] 0) 1 0 eq_refl) as (c' & E & S1).
  change (at_top (mkSlice 0 0 s) None [] (mkSpans s [] 0) 1 0) with (new_parser s) in S1. apply (steps_shows _ _ _ S1) in Hv as (w' & Hw' & ->).
  assert (w' = w) as ->; [|reflexivity].
  refine (token_shows (at_top c' None [] (mkSpans s [] 0) 1 0) (new_parser r) c' (mkSlice 0 0 r) None [] [] w' w eq_refl eq_refl eq_refl eq_refl (Forall2_nil _) (csim_refl _) _ Hw' Hw Hcv Hcw).
  cbn [stxt]. apply lex_token_same, E.
Qed.

(** The events are yielded whatever follows. *)
Theorem begins_run : sound -> forall s es r, begins s es r -> exists n o p, run n (new_parser s) = (map ItEvent es, o, p).
Proof.
  intros Hsound s es r Hb. destruct (begins_steps Hsound _ _ _ Hb (mkSlice 0 0 s) None [] (mkSpans s [] 0) 1 0 eq_refl) as (c' & _ & S1).
  change (at_top (mkSlice 0 0 s) None [] (mkSpans s [] 0) 1 0) with (new_parser s) in S1. revert S1.
  generalize (at_top c' None [] (mkSpans s [] 0) 1 0) (new_parser s). clear. intros p' p S1.
  induction S1 as [p|p p1 es p2 H1 H2 IH|p e p1 es p2 H1 H2 IH].
  - exists 0%nat. do 2 eexists. reflexivity.
  - destruct IH as (n & o & q & Hn). exists (S n), o, q. cbn [run]. rewrite H1. exact Hn.
  - destruct IH as (n & o & q & Hn). exists (S n), o, q. cbn [run]. rewrite H1, Hn. reflexivity.
Qed.

End Known.
