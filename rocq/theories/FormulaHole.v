(** * FormulaHole: an error inside a formula, wherever it is. *)

From Coq Require Import Ascii String List NArith ZArith Bool Lia Arith.
From Verif Require Import Base Float32 Event Tables Prim PrimTable Lex Macros Primitives Spans Parser
  SpecLex SpecNum LexFacts LexMore LexNum PrimFacts Keep KeepRun Measure Order Terminate Api Sim SimRun SpanFacts MacroRun
  SpecFormula FormulaLex FormulaActs FormulaNucleus FormulaNucleus2 FormulaNucleus3 FormulaNucleus4 FormulaStep FormulaPrefix
  FormulaCompose.
Import ListNotations.
Open Scope N_scope.
Open Scope list_scope.

Strategy 1000 [parse parse_fuel].

(** ** More instructions below change nothing before the end *)

Definition above_stack (K : list instr) (p : parser) : parser :=
  mkParser (p_stack p ++ K) (p_buf p) (p_macros p) (p_spans p) (p_next p) (p_alloc p).

Lemma after_above : forall K s x, after (s ++ K) x = (fst (after s x), above_stack K (snd (after s x))).
Proof.
  intros K s [r q]. destruct r as [[[[e n] m]|]|e|y|]; cbn [after]; unfold above_stack, to_parser; cbn [fst snd p_stack p_buf p_macros p_spans p_next p_alloc app]; try reflexivity.
  - destruct (order_scripts n m (i_buf (q_ist q))); cbn [fst snd p_stack p_buf p_macros p_spans p_next p_alloc app]; try reflexivity.
    repeat (rewrite <- app_assoc; cbn [app]). reflexivity.
  - rewrite <- app_assoc. reflexivity.
  - destruct (new_error _ _ _) as [[]]; reflexivity.
Qed.

Lemma next_step_above : forall K p, p_stack p <> [] -> next_step (above_stack K p) = (fst (next_step p), above_stack K (snd (next_step p))).
Proof.
  intros K p Hp. rewrite !next_step_eq. destruct p as [st b m sp nx ac]. unfold above_stack at 1. cbn [p_stack] in Hp |- *.
  destruct st as [|[e|c al] st]; [congruence|reflexivity|]. cbn [app]. destruct (is_nil _); [reflexivity|]. 
  change (of_parser (above_stack K (mkParser (ISub c al :: st) b m sp nx ac)) c al) with (of_parser (mkParser (ISub c al :: st) b m sp nx ac) c al).
  apply after_above.
Qed.

Lemma shows_above : forall K n p l o q, run n p = (l, o, q) -> o <> OFuel -> snd (view_of l o) <> EndDone ->
  shows (above_stack K p) (view_of l o).
Proof.
  induction n as [|n IH]; intros p l o q H Ho Hv; [cbn in H; congruence|]. cbn [run] in H.
  destruct (p_stack p) as [|i s] eqn:Es.
  { rewrite next_step_eq, Es in H. injection H as <- <- <-. cbn in Hv. congruence. }
  apply shows_step. rewrite next_step_above by (rewrite Es; discriminate). destruct (next_step p) as [[i'| | |x| ] p']; cbn [fst snd shows_of].
  - destruct (run n p') as [[l' o'] q'] eqn:E. injection H as <- <- <-. destruct i' as [e|pe]; [|reflexivity].
    cbn [view_of] in Hv |- *. specialize (IH p' l' o' q' E Ho). destruct (view_of l' o') as [evs x]. cbn [snd] in *. exists (evs, x). auto.
  - eapply IH; eassumption.
  - injection H as <- <- <-. cbn in Hv. congruence.
  - injection H as <- <- <-. reflexivity.
  - congruence.
Qed.

(** The parser of the text [s] alone, where [al] tells how rows are treated. *)
Definition alone (al : option (N * N)) (s : str) : parser := mkParser [ISub (mkSlice 0 0 s) al] [] [] (mkSpans s [] 0) 1 0.

Lemma error_above : forall al g es e c K sp nx ac w, shows (alone al g) (es, EndError e) -> trim_start (stxt c) = trim_start g ->
  e <> EMacroRecursionLimit -> shows (at_top c al K sp nx ac) w -> complete w -> w = (es, EndError e).
Proof.
  intros al g es e c K sp nx ac w Hg Hc He Hw Hcw.
  destruct (shows_total (at_top c al [] sp nx ac)) as [w3 H3].
  assert (Hcg : complete (es, EndError e)) by (split; cbn; congruence).
  assert (Heq : complete w3 -> w3 = (es, EndError e)).
  { intros H. refine (token_shows (at_top c al [] sp nx ac) (alone al g) c (mkSlice 0 0 g) al [] [] w3 (es, EndError e) eq_refl eq_refl eq_refl eq_refl (Forall2_nil _) (csim_refl _) _ H3 Hg H Hcg).
    cbn [stxt]. apply lex_token_same, Hc. }
  assert (Hsame : snd w3 <> EndDone -> w = w3).
  { intros Hn. destruct H3 as (n & l & o & q & Hr & Ho & ->). eapply shows_fun; [exact Hw|].
    change (at_top c al K sp nx ac) with (above_stack K (at_top c al [] sp nx ac)). eapply shows_above; eassumption. }
  destruct w3 as [evs x]. cbn [snd] in Hsame. destruct x as [e'| |].
  - rewrite Hsame in Hcw |- * by discriminate. apply Heq, Hcw.
  - rewrite Hsame in Hcw by discriminate. destruct Hcw as [Hcw _]. cbn in Hcw. congruence.
  - discriminate Heq. split; discriminate.
Qed.

(** ** Formulas with a hole *)

(** A text [g] in a formula, where [al] tells how rows are treated, stands for
    one event [M]; the other texts are as before. *)
Definition hole (al : option (N * N)) (g : str) (M : event) : Known :=
  fun al' s es => parsed al' s es \/ (al' = al /\ s = g /\ es = [M]).

Section Hole.
  Variables (al0 : option (N * N)) (g0 : str) (M : event).
  Let KN : Known := hole al0 g0 M.
  Existing Instance KN.

  (** Either all of it is read, or the hole is reached. *)
  Definition reach (p : parser) (es : list event) (p' : parser) : Prop :=
    steps p es p' \/
    exists pre post c K, es = pre ++ M :: post /\ trim_start (stxt c) = trim_start g0 /\
      steps p pre (at_top c al0 K (p_spans p) (p_next p) (p_alloc p)).

  Lemma steps_still : forall p es p', steps p es p' -> forall q, p' = q -> steps p es q.
  Proof. intros; subst; assumption. Qed.

  Lemma reach_trans : forall p es p' es' p'', steps p es p' -> p_spans p' = p_spans p -> p_next p' = p_next p -> p_alloc p' = p_alloc p ->
    reach p' es' p'' -> reach p (es ++ es') p''.
  Proof.
    intros p es p' es' p'' H E1 E2 E3 [H'|(pre & post & c & K & -> & Hc & H')].
    - left. eapply steps_trans; eassumption.
    - right. exists (es ++ pre), post, c, K. split; [rewrite <- app_assoc; reflexivity|]. split; [exact Hc|].
      rewrite E1, E2, E3 in H'. eapply steps_trans; eassumption.
  Qed.

  Definition reaches_end (s : str) (al : option (N * N)) (es : list event) : Prop :=
    forall c K sp nx ac, trim_start (stxt c) = trim_start s -> reach (at_top c al K sp nx ac) es (mkParser K [] [] sp nx ac).

  Lemma reach_more : forall p es p' es' p'', reach p es p' -> p_spans p' = p_spans p -> p_next p' = p_next p -> p_alloc p' = p_alloc p ->
    reach p' es' p'' -> reach p (es ++ es') p''.
  Proof.
    intros p es p' es' p'' [H|(pre & post & c & K & -> & Hc & H)] E1 E2 E3 H'; [eapply reach_trans; eassumption|].
    right. exists pre, (post ++ es'), c, K. split; [rewrite <- app_assoc; reflexivity|]. auto.
  Qed.

  Lemma means_reach : forall n L es, means n L es -> (forall s al es, (length s < n)%nat -> formula al s es -> reaches_end s al es) ->
    forall K sp nx ac, reach (mkParser (L ++ K) [] [] sp nx ac) es (mkParser K [] [] sp nx ac).
  Proof.
    intros n L es H Hp. induction H as [|e L es H IH|c al es L es' Hl Hf H IH]; intros K sp nx ac.
    - left. constructor.
    - change (e :: es) with ([e] ++ es). eapply (reach_trans _ _ (mkParser (L ++ K) [] [] sp nx ac)); [|reflexivity..|apply IH].
      eapply st_item; [reflexivity|constructor].
    - eapply (reach_more _ _ (mkParser (L ++ K) [] [] sp nx ac)); [|reflexivity..|apply IH]. apply (Hp (stxt c) al es Hl Hf c (L ++ K)). reflexivity.
  Qed.

  Lemma turns_reach : forall s al es al' r es', turns s al es al' r ->
    (forall s1 al1 es1, (length s1 < length s)%nat -> formula al1 s1 es1 -> reaches_end s1 al1 es1) -> formula al' r es' ->
    reaches_end s al (es ++ es').
  Proof.
    intros s al es al' r es' (Hl & H) IH Hf c K sp nx ac Hc. destruct (H c K sp nx ac Hc) as (IL & c' & H1 & H2 & H3).
    change (es ++ es') with ([] ++ (es ++ es')). eapply reach_trans; [eapply st_cont; [exact H1|constructor]|reflexivity..|].
    eapply (reach_more _ _ (at_top c' al' K sp nx ac)); [eapply means_reach; [exact H2|exact IH]|reflexivity..|].
    apply (IH r al' es' Hl Hf c' K sp nx ac H3).
  Qed.

  Lemma pops_reaches : forall s al es, pops s al es -> reaches_end s al es.
  Proof. intros s al es H c K sp nx ac Hc. left. apply H, Hc. Qed.

  Lemma formula_reach : forall n s al es, (length s < n)%nat -> formula al s es -> reaches_end s al es.
  Proof.
    induction n as [|n IH]; intros s al es Hn H; [lia|].
    assert (IH' : forall s1 al1 es1, (length s1 < length s)%nat -> formula al1 s1 es1 -> reaches_end s1 al1 es1) by (intros; eapply IH; [lia|eassumption]).
    clear IH. destruct H as [al s es Hk|al b Hb|al b t Hb Ht|al s es r es' He Hf|k m b s es Hb Hk H1 H2 Hf|k m b cs t s d s1 ls s2 es Hb Hin Hc Hd Hls H1 H2 Hf].
    - destruct Hk as [Hk|(-> & -> & ->)]; [apply pops_reaches, parsed_sound, Hk|].
      intros c K sp nx ac Hc. right. exists [], [], c, K. split; [reflexivity|]. split; [exact Hc|constructor].
    - apply pops_reaches, end_pops, blank_token_end, Hb.
    - apply pops_reaches, end_pops, comment_token_end; assumption.
    - eapply turns_reach; [apply element_turn; exact He|exact IH'|exact Hf].
    - apply (turns_reach _ _ [EvFlow EFAlignment] _ _ es (mark_turn k m b s Hb Hk H1 H2)); assumption.
    - apply (turns_reach _ _ [EvFlow (EFNewLine d ls)] _ _ es (row_turn k m b cs t s d s1 ls s2 Hb Hin Hc Hd Hls H1 H2)); assumption.
  Qed.
End Hole.

(** ** An event that does not occur *)

Definition size_of (e : event) : nat := match e with EvContent (CNumber s) => length s | _ => 0 end.
Definition fresh (n : nat) : event := EvContent (CNumber (repeat 49 n)).

Lemma fresh_size : forall n, size_of (fresh n) = n.
Proof. intros n. apply repeat_length. Qed.

Lemma fresh_not_in : forall l, exists n, forall m, (n < m)%nat -> ~ In (fresh m) l.
Proof.
  intros l. exists (list_sum (map size_of l)). intros m Hm Hin. rewrite <- (fresh_size m) in Hm. revert Hm Hin. generalize (fresh m). intros e.
  induction l as [|x l IH]; [intros _ []|]. change (list_sum (map size_of (x :: l))) with (size_of x + list_sum (map size_of l))%nat. intros Hm [->|Hin]; [lia|]. apply IH; [lia|exact Hin].
Qed.

Lemma first_occurrence : forall (M : event) pre post pre' post', ~ In M pre -> ~ In M post -> pre ++ M :: post = pre' ++ M :: post' -> pre = pre'.
Proof.
  intros M pre. induction pre as [|x pre IH]; intros post [|y pre'] post' H1 H2 E; cbn in E.
  - reflexivity.
  - injection E as E1 E2. exfalso. apply H2. rewrite E2. apply in_or_app. right. left. reflexivity.
  - injection E as E1 E2. exfalso. apply H1. left. exact E1.
  - injection E as -> E. f_equal. eapply IH; [|exact H2|exact E]. intros X. apply H1. right. exact X.
Qed.

(** The text [t] has the text [g] in it, where [al] tells how rows are treated:
    whatever [g] means, [t] means [pre], that, and [post]. *)
Definition has_inside (t : str) (al : option (N * N)) (g : str) (pre post : list event) : Prop :=
  forall M, @formula (hole al g M) None t (pre ++ M :: post).

Lemma inside_steps : forall t al g pre post, has_inside t al g pre post ->
  exists c K, trim_start (stxt c) = trim_start g /\ steps (new_parser t) pre (at_top c al K (mkSpans t [] 0) 1 0).
Proof.
  intros t al g pre post H. destruct (fresh_not_in (pre ++ post)) as [n Hn].
  assert (Hone : forall m, (n < m)%nat -> parses t (map ItEvent (pre ++ fresh m :: post)) \/
    exists c K, trim_start (stxt c) = trim_start g /\ steps (new_parser t) pre (at_top c al K (mkSpans t [] 0) 1 0)).
  { intros m Hm. destruct (formula_reach al g (fresh m) (S (length t)) t None _ (Nat.lt_succ_diag_r _) (H (fresh m)) (mkSlice 0 0 t) [] (mkSpans t [] 0) 1 0 eq_refl)
      as [Hs|(pre' & post' & c & K & E & Hc & Hs)].
    - left. destruct (steps_run _ _ _ Hs eq_refl) as [k Hk]. exists k. eexists. exact Hk.
    - right. exists c, K. split; [exact Hc|]. apply first_occurrence in E; [subst pre'; exact Hs| |]; intros X; apply (Hn m Hm), in_or_app; auto. }
  destruct (Hone (S n) (Nat.lt_succ_diag_r _)) as [H1|H1]; [|exact H1]. destruct (Hone (S (S n)) (Nat.lt_lt_succ_r _ _ (Nat.lt_succ_diag_r _))) as [H2|H2]; [|exact H2].
  exfalso. pose proof (parses_det _ _ _ H1 H2) as E. rewrite !map_app in E. apply app_inv_head in E. cbn [map] in E.
  apply (f_equal (fun l => match l with ItEvent e :: _ => size_of e | _ => 0%nat end)) in E. rewrite !fresh_size in E. lia.
Qed.

(** An error in it is what is seen, after the events before it. *)
Theorem inside_error : forall t al g pre post es e v, has_inside t al g pre post ->
  shows (alone al g) (es, EndError e) -> e <> EMacroRecursionLimit ->
  shows (new_parser t) v -> complete v -> v = (pre ++ es, EndError e).
Proof.
  intros t al g pre post es e v H Hg He Hv Hc. destruct (inside_steps _ _ _ _ _ H) as (c & K & Hcg & Hs).
  apply (steps_shows _ _ _ Hs) in Hv as (w & Hw & ->). assert (Hcw : complete w) by (destruct w; exact Hc).
  rewrite (error_above al g es e c K _ _ _ w Hg Hcg He Hw Hcw). reflexivity.
Qed.
