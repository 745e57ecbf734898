(** * FormulaFirst: the first error of a text, whatever follows it. *)

From Coq Require Import Ascii String List NArith ZArith Bool Lia Arith.
From Verif Require Import Base Float32 Event Tables Prim PrimTable Lex Macros Primitives Spans Parser
  SpecLex SpecNum LexFacts LexMore LexNum PrimFacts Keep KeepRun Measure Order Terminate Api Sim SimRun SpanFacts MacroRun SpanRun
  SpecFormula FormulaLex FormulaActs FormulaNucleus FormulaNucleus2 FormulaNucleus3 FormulaNucleus4 FormulaStep FormulaPrefix
  FormulaCompose FormulaHole SpecFault FormulaFault.
Import ListNotations.
Open Scope N_scope.
Open Scope list_scope.

Strategy 1000 [parse parse_fuel].

(** ** What is known more is meant more *)

Scheme nucleus_all := Minimality for nucleus Sort Prop
  with over_all := Minimality for over Sort Prop
  with arguments_all := Minimality for arguments Sort Prop
  with scripts_all := Minimality for scripts Sort Prop
  with element_all := Minimality for element Sort Prop
  with formula_all := Minimality for formula Sort Prop.
Combined Scheme meaning_all from nucleus_all, over_all, arguments_all, scripts_all, element_all, formula_all.

Lemma meaning_more : forall K1 K2 : Known, (forall al s es, K1 al s es -> K2 al s es) ->
  (forall h s es l r, @nucleus K1 h s es l r -> @nucleus K2 h s es l r) /\
  (forall s es, @over K1 s es -> @over K2 s es) /\
  (forall h ks s ess r, @arguments K1 h ks s ess r -> @arguments K2 h ks s ess r) /\
  (forall p es s es' r, @scripts K1 p es s es' r -> @scripts K2 p es s es' r) /\
  (forall s es r, @element K1 s es r -> @element K2 s es r) /\
  (forall al s es, @formula K1 al s es -> @formula K2 al s es).
Proof.
  intros K1 K2 HK. apply (@meaning_all K1); intros; try (econstructor; eassumption).
  apply F_known, HK. assumption.
Qed.

Lemma formula_more : forall K1 K2 : Known, (forall al s es, K1 al s es -> K2 al s es) ->
  forall al s es, @formula K1 al s es -> @formula K2 al s es.
Proof. intros K1 K2 H. apply (meaning_more K1 K2 H). Qed.

(** ** Marks *)

(** Every text may stand for a mark of its own. *)
Definition marking (f : option (N * N) -> str -> event) : Known :=
  fun al s es => parsed al s es \/ es = [f al s].

Section Marks.
  Variable f : option (N * N) -> str -> event.
  Let KN : Known := marking f.
  Existing Instance KN.

  (** Either all of it is read, or a mark is reached. *)
  Definition reach_mark (p : parser) (es : list event) (p' : parser) : Prop :=
    steps p es p' \/
    exists al g pre post c K, es = pre ++ f al g :: post /\ trim_start (stxt c) = trim_start g /\
      steps p pre (at_top c al K (p_spans p) (p_next p) (p_alloc p)).

  Lemma rm_trans : forall p es p' es' p'', steps p es p' -> p_spans p' = p_spans p -> p_next p' = p_next p -> p_alloc p' = p_alloc p ->
    reach_mark p' es' p'' -> reach_mark p (es ++ es') p''.
  Proof.
    intros p es p' es' p'' H E1 E2 E3 [H'|(al & g & pre & post & c & K & -> & Hc & H')].
    - left. eapply steps_trans; eassumption.
    - right. exists al, g, (es ++ pre), post, c, K. split; [rewrite <- app_assoc; reflexivity|]. split; [exact Hc|].
      rewrite E1, E2, E3 in H'. eapply steps_trans; eassumption.
  Qed.

  Lemma rm_more : forall p es p' es' p'', reach_mark p es p' -> p_spans p' = p_spans p -> p_next p' = p_next p -> p_alloc p' = p_alloc p ->
    reach_mark p' es' p'' -> reach_mark p (es ++ es') p''.
  Proof.
    intros p es p' es' p'' [H|(al & g & pre & post & c & K & -> & Hc & H)] E1 E2 E3 H'; [eapply rm_trans; eassumption|].
    right. exists al, g, pre, (post ++ es'), c, K. split; [rewrite <- app_assoc; reflexivity|]. auto.
  Qed.

  Definition marks_end (s : str) (al : option (N * N)) (es : list event) : Prop :=
    forall c K sp nx ac, trim_start (stxt c) = trim_start s -> reach_mark (at_top c al K sp nx ac) es (mkParser K [] [] sp nx ac).

  Lemma means_rm : forall n L es, means n L es -> (forall s al es, (length s < n)%nat -> formula al s es -> marks_end s al es) ->
    forall K sp nx ac, reach_mark (mkParser (L ++ K) [] [] sp nx ac) es (mkParser K [] [] sp nx ac).
  Proof.
    intros n L es H Hp. induction H as [|e L es H IH|c al es L es' Hl Hf H IH]; intros K sp nx ac.
    - left. constructor.
    - change (e :: es) with ([e] ++ es). eapply (rm_trans _ _ (mkParser (L ++ K) [] [] sp nx ac)); [|reflexivity..|apply IH].
      eapply st_item; [reflexivity|constructor].
    - eapply (rm_more _ _ (mkParser (L ++ K) [] [] sp nx ac)); [|reflexivity..|apply IH]. apply (Hp (stxt c) al es Hl Hf c (L ++ K)). reflexivity.
  Qed.

  Lemma turns_rm : forall s al es al' r es', turns s al es al' r ->
    (forall s1 al1 es1, (length s1 < length s)%nat -> formula al1 s1 es1 -> marks_end s1 al1 es1) -> formula al' r es' ->
    marks_end s al (es ++ es').
  Proof.
    intros s al es al' r es' (Hl & H) IH Hf c K sp nx ac Hc. destruct (H c K sp nx ac Hc) as (IL & c' & H1 & H2 & H3).
    change (es ++ es') with ([] ++ (es ++ es')). eapply rm_trans; [eapply st_cont; [exact H1|constructor]|reflexivity..|].
    eapply (rm_more _ _ (at_top c' al' K sp nx ac)); [eapply means_rm; [exact H2|exact IH]|reflexivity..|].
    apply (IH r al' es' Hl Hf c' K sp nx ac H3).
  Qed.

  Lemma pops_rm : forall s al es, pops s al es -> marks_end s al es.
  Proof. intros s al es H c K sp nx ac Hc. left. apply H, Hc. Qed.

  Lemma formula_rm : forall n s al es, (length s < n)%nat -> formula al s es -> marks_end s al es.
  Proof.
    induction n as [|n IH]; intros s al es Hn H; [lia|].
    assert (IH' : forall s1 al1 es1, (length s1 < length s)%nat -> formula al1 s1 es1 -> marks_end s1 al1 es1) by (intros; eapply IH; [lia|eassumption]).
    clear IH. destruct H as [al s es Hk|al b Hb|al b t Hb Ht|al s es r es' He Hf|k m b s es Hb Hk H1 H2 Hf|k m b cs t s d s1 ls s2 es Hb Hin Hc Hd Hls H1 H2 Hf].
    - destruct Hk as [Hk| ->]; [apply pops_rm, parsed_sound, Hk|].
      intros c K sp nx ac Hc. right. exists al, s, [], [], c, K. split; [reflexivity|]. split; [exact Hc|constructor].
    - apply pops_rm, end_pops, blank_token_end, Hb.
    - apply pops_rm, end_pops, comment_token_end; assumption.
    - eapply turns_rm; [apply element_turn; exact He|exact IH'|exact Hf].
    - apply (turns_rm _ _ [EvFlow EFAlignment] _ _ es (mark_turn k m b s Hb Hk H1 H2)); assumption.
    - apply (turns_rm _ _ [EvFlow (EFNewLine d ls)] _ _ es (row_turn k m b cs t s d s1 ls s2 Hb Hin Hc Hd Hls H1 H2)); assumption.
  Qed.
End Marks.

(** ** Marks that do not occur otherwise *)

Definition al_code (al : option (N * N)) : str := match al with None => [0] | Some (k, m) => [1; k; m] end.
Definition mark (n : nat) (al : option (N * N)) (g : str) : event := EvContent (CNumber (repeat 49 n ++ al_code al ++ g)).

Lemma mark_inj : forall n al g al' g', mark n al g = mark n al' g' -> al = al' /\ g = g'.
Proof.
  intros n al g al' g' H. injection H as H. apply app_inv_head in H. destruct al as [[k m]|], al' as [[k' m']|]; cbn in H; try discriminate; injection H; intros; subst; auto.
Qed.

Lemma mark_not_in : forall l, exists n, forall al g, ~ In (mark n al g) l.
Proof.
  intros l. exists (list_sum (map size_of l)). intros al g Hin.
  assert (Hs : (list_sum (map size_of l) < size_of (mark (list_sum (map size_of l)) al g))%nat).
  { cbn [mark size_of]. rewrite !app_length, repeat_length. destruct al as [[k m]|]; cbn; lia. }
  revert Hs Hin. generalize (mark (list_sum (map size_of l)) al g). intros e.
  assert (In e l -> (size_of e <= list_sum (map size_of l))%nat); [|intros Hs Hin; specialize (H Hin); lia].
  induction l as [|x l IH]; [intros []|]. change (list_sum (map size_of (x :: l))) with (size_of x + list_sum (map size_of l))%nat.
  intros [->|Hin]; [lia|]. specialize (IH Hin). lia.
Qed.

(** Reading [t], one comes to the text [g], where [al] tells how rows are
    treated, after the events [pre]: whatever texts mean, [t] means [pre], then
    what [g] means, then something. *)
Definition comes_to (t : str) (al : option (N * N)) (g : str) (pre : list event) : Prop :=
  forall f, exists post, @formula (marking f) None t (pre ++ f al g :: post).

Lemma inside_comes : forall t al g pre post, has_inside t al g pre post -> comes_to t al g pre.
Proof.
  intros t al g pre post H f. exists post. eapply formula_more; [|apply H]. intros al' s es [Hk|(-> & -> & ->)]; [left; exact Hk|right; reflexivity].
Qed.

Lemma app_cases : forall A (a b : list A) x c y d, a ++ x :: c = b ++ y :: d -> (a = b /\ x = y) \/ In x b \/ In y a.
Proof.
  intros A. induction a as [|u a IH]; intros [|v b] x c y d E; cbn in E; injection E as E1 E2.
  - auto.
  - subst. right. left. left. reflexivity.
  - subst. right. right. left. reflexivity.
  - subst v. destruct (IH _ _ _ _ _ E2) as [(-> & ->)|[H|H]]; [auto|right; left; right; exact H|right; right; right; exact H].
Qed.

Lemma comes_steps : forall t al g pre, comes_to t al g pre ->
  exists c K, trim_start (stxt c) = trim_start g /\ steps (new_parser t) pre (at_top c al K (mkSpans t [] 0) 1 0).
Proof.
  intros t al g pre H. destruct (shows_total (new_parser t)) as [v Hv].
  destruct (mark_not_in (pre ++ fst v)) as [n Hn]. destruct (H (mark n)) as [post Hf].
  destruct (formula_rm (mark n) (S (length t)) t None _ (Nat.lt_succ_diag_r _) Hf (mkSlice 0 0 t) [] (mkSpans t [] 0) 1 0 eq_refl)
    as [Hs|(al' & g' & pre' & post' & c & K & E & Hc & Hs)]; change (at_top (mkSlice 0 0 t) None [] (mkSpans t [] 0) 1 0) with (new_parser t) in Hs;
    pose proof (proj1 (steps_shows _ _ _ Hs v) Hv) as (w & _ & ->); cbn [fst] in Hn.
  - exfalso. apply (Hn al g). apply in_or_app. right. apply in_or_app. left. apply in_or_app. right. left. reflexivity.
  - apply app_cases in E as [(-> & E)|[E|E]].
    + apply mark_inj in E as [-> ->]. exists c, K. auto.
    + exfalso. apply (Hn al g). apply in_or_app. right. apply in_or_app. left. exact E.
    + exfalso. apply (Hn al' g'). apply in_or_app. left. exact E.
Qed.

(** An error there is what is seen, after the events before it. *)
Theorem error_there : forall t al g pre es e v, comes_to t al g pre ->
  shows (alone al g) (es, EndError e) -> e <> EMacroRecursionLimit ->
  shows (new_parser t) v -> complete v -> v = (pre ++ es, EndError e).
Proof.
  intros t al g pre es e v H Hg He Hv Hc. destruct (comes_steps _ _ _ _ H) as (c & K & Hcg & Hs).
  apply (steps_shows _ _ _ Hs) in Hv as (w & Hw & ->). assert (Hcw : complete w) by (destruct w; exact Hc).
  rewrite (error_above al g es e c K _ _ _ w Hg Hcg He Hw Hcw). reflexivity.
Qed.

Theorem fault_there : forall t al g pre e, comes_to t al g pre -> @fault anything al g e ->
  shows (new_parser t) (pre, EndError e).
Proof.
  intros t al g pre e H Hf. destruct (comes_steps _ _ _ _ H) as (c & K & Hc & Hs).
  rewrite <- (app_nil_r pre). apply (steps_view _ _ _ Hs ([], EndError e)).
  eapply (@fault_top anything); [eapply steps_place; [exact Hs|apply place_new]|reflexivity|exact Hc|exact Hf].
Qed.
